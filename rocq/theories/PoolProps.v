(** * Property C107: the pool of executables of the Goldstein-Price example. *)
From Coq Require Import Bool Arith List Lia.
From Verif Require Import ExamModel ExamProps PoolModel.
Import ListNotations.
Local Open Scope nat_scope.

(** the calls with values among some events *)
Definition calls (evs : list pev) : list nat := flat_map (fun e => match e with PCall c => [c] | _ => [] end) evs.
Definition plain (evs : list pev) : Prop := forall e, In e evs -> match e with PCall _ | PReply _ => True | _ => False end.
(** what runner [r] of [n] sees of the events, when the calls are dealt out in
    turn, the next one being call [k]: its commands and its answers *)
Fixpoint share (n r k : nat) (evs : list pev) : list eev :=
  match evs with
  | [] => []
  | PCall c :: evs => (if k mod n =? r then [ECmd c] else []) ++ share n r (S k) evs
  | PReply r' :: evs => (if r' =? r then [EReply] else []) ++ share n r k evs
  | _ :: evs => share n r k evs
  end.
(** the runners' order after [k] calls *)
Definition turn (n k : nat) : list nat := map (fun i => (k + i) mod n) (seq 0 n).

Lemma turn_next n k : turn (S n) (S k) = tl (turn (S n) k) ++ [k mod S n].
Proof.
  unfold turn. transitivity (map (fun i => (S k + i) mod S n) (seq 0 n ++ [0 + n])); [now rewrite seq_S|]. rewrite map_app. cbn [map seq tl].
  rewrite <- seq_shift, map_map. f_equal; [apply map_ext; intros; f_equal; lia|]. f_equal. replace (S k + (0 + n)) with (k + 1 * S n) by lia. apply Nat.mod_add. lia.
Qed.
Lemma turn_hd n k : turn (S n) k = k mod S n :: tl (turn (S n) k).
Proof. unfold turn. cbn [seq map tl]. now rewrite Nat.add_0_r. Qed.
Lemma turn_0 n : turn n 0 = seq 0 n.
Proof. unfold turn. rewrite <- (map_id (seq 0 n)) at 2. apply map_ext_in. intros i I. apply in_seq in I. cbn [Nat.add]. apply Nat.mod_small. lia. Qed.
Lemma turn_length n k : length (turn n k) = n. Proof. unfold turn. now rewrite map_length, seq_length. Qed.

(** With calls and answers only, no one ever waits for a runner, nothing overflows, and
    each runner works on every n-th call, whether or not it is free *)
Definition plain_inv (n k : nat) (p : pool) : Prop :=
  pqueue p = turn n k /\ pwait p = [] /\ perr p = 0 /\ pstops p = [] /\ pover p = false /\ ptrig p = [].
Lemma plain_steps n evs : 1 <= n -> plain evs -> forall k p, plain_inv n k p ->
  let p' := fold_left (pool_step n) evs p in
  plain_inv n (k + length (calls evs)) p' /\ forall r, pexec p' r = ep_run (pexec p r) (share n r k evs).
Proof.
  intros N. destruct n as [|n]; [lia|]. clear N. induction evs as [|e evs IH]; intros PL k p I; cbn [fold_left].
  - cbn. rewrite Nat.add_0_r. auto.
  - assert (PL' : plain evs) by (intros e' H; apply PL; now right).
    pose proof (PL e (or_introl eq_refl)) as PE. destruct I as (Q & W & E & ST & O & T).
    destruct e as [c| |r'|]; try contradiction.
    + assert (G : plain_inv (S n) (S k) (pool_step (S n) p (PCall c)) /\ pexec (pool_step (S n) p (PCall c)) = on (k mod S n) (ECmd c) (pexec p)).
      { unfold pool_step, get. rewrite Q, turn_hd, W. cbn [put pqueue pexec pwait perr pstops pover ptrig].
        assert (L : length (tl (turn (S n) k)) = n) by (pose proof (turn_length (S n) k) as X; rewrite turn_hd in X; cbn [length] in X; lia).
        rewrite L. rewrite (proj2 (Nat.ltb_lt n (S n))) by lia. split; [|reflexivity]. unfold plain_inv. cbn [put pqueue pexec pwait perr pstops pover ptrig].
        rewrite turn_next. auto 10. }
      destruct G as [G1 G2]. destruct (IH PL' (S k) _ G1) as [H1 H2]. split; [change (calls (PCall c :: evs)) with (c :: calls evs); cbn [length]; replace (k + S (length (calls evs))) with (S k + length (calls evs)) by lia; exact H1|].
      intros r. rewrite H2, G2. cbn [share]. unfold on. rewrite (Nat.eqb_sym r). destruct (k mod S n =? r); reflexivity.
    + assert (G : plain_inv (S n) k (pool_step (S n) p (PReply r'))) by (unfold plain_inv, pool_step; cbn; auto 10).
      destruct (IH PL' k _ G) as [H1 H2]. split; [exact H1|]. intros r. rewrite H2. unfold pool_step. cbn [pexec share]. unfold on. rewrite (Nat.eqb_sym r). destruct (r' =? r); reflexivity.
Qed.
Lemma init_inv n : plain_inv n 0 (pool_init n).
Proof. unfold plain_inv, pool_init. cbn. now rewrite turn_0. Qed.

(** *** C107 *)
(** As long as calls are answered only, no call waits for a runner, and each runner
    gets every n-th call, whether or not it is free *)
Theorem C107_in_turn : forall n evs, 1 <= n -> plain evs ->
  let p := pool_run n evs in
  pwait p = [] /\ perr p = 0 /\ pover p = false /\ (forall r, r < n -> In r (pqueue p)) /\ length (pqueue p) = n /\
  forall r, pexec p r = ep_run start (share n r 0 evs).
Proof.
  intros n evs N PL. cbv zeta. unfold pool_run. destruct (plain_steps n evs N PL 0 (pool_init n) (init_inv n)) as [(Q & W & E & ST & O & T) X].
  split; [exact W|]. split; [exact E|]. split; [exact O|]. split; [|split; [rewrite Q; apply turn_length|exact X]].
  intros r R. rewrite Q. unfold turn. set (k := 0 + length (calls evs)). apply in_map_iff. exists ((r + n * k - k) mod n). split.
  - rewrite Nat.add_mod_idemp_r by lia. replace (k + (r + n * k - k)) with (r + k * n) by nia. rewrite Nat.mod_add by lia. now apply Nat.mod_small.
  - apply in_seq. pose proof (Nat.mod_upper_bound (r + n * k - k) n ltac:(lia)). lia.
Qed.

(** With at most two calls unanswered at each runner, every call is answered with
    its own value *)
Theorem C107_own : forall n evs, 1 <= n -> plain evs -> (forall r, at_most_two (share n r 0 evs)) ->
  forall r, exists m, eres (pexec (pool_run n evs) r) = map (fun c => (c, c)) (firstn m (commands (share n r 0 evs))).
Proof.
  intros n evs N PL H r. destruct (C107_in_turn n evs N PL) as (_ & _ & _ & _ & _ & X). rewrite X. apply C73_two; [apply H|].
  clear. generalize 0. induction evs as [|[c| |r'|] evs IH]; intros k e I; cbn [share] in I; try (now apply (IH k)); [destruct I|..].
  - apply in_app_or in I as [I|I]; [|now apply (IH (S k))]. destruct (k mod n =? r); [|destruct I]. destruct I as [<-|[]]. discriminate.
  - apply in_app_or in I as [I|I]; [|now apply (IH k)]. destruct (r' =? r); [|destruct I]. destruct I as [<-|[]]. discriminate.
Qed.

(** the calls that are dealt to runner [r] *)
Fixpoint deal (n r k : nat) (cs : list nat) : list nat :=
  match cs with [] => [] | c :: cs => (if k mod n =? r then [c] else []) ++ deal n r (S k) cs end.
Lemma deal_app n r a : forall k b, deal n r k (a ++ b) = deal n r k a ++ deal n r (k + length a) b.
Proof. induction a as [|c a IH]; intros k b; cbn [app deal length]; [now rewrite Nat.add_0_r|]. rewrite IH, app_assoc. now replace (S k + length a) with (k + S (length a)) by lia. Qed.
Lemma deal_none n r cs : forall k, (forall i, i < length cs -> (k + i) mod n <> r) -> deal n r k cs = [].
Proof.
  induction cs as [|c cs IH]; intros k H; [reflexivity|]. cbn [deal].
  pose proof (H 0 ltac:(cbn; lia)) as H0. rewrite Nat.add_0_r in H0. rewrite (proj2 (Nat.eqb_neq _ _) H0). cbn [app]. apply IH.
  intros i I. replace (S k + i) with (k + S i) by lia. apply H. cbn. lia.
Qed.
Lemma mod_inj n k i j : 0 < n -> i < n -> j < n -> (k + i) mod n = (k + j) mod n -> i = j.
Proof.
  intros N I J H. pose proof (Nat.div_mod (k + i) n ltac:(lia)) as A. pose proof (Nat.div_mod (k + j) n ltac:(lia)) as B. rewrite H in A.
  set (q := (k + i) / n) in *. set (q' := (k + j) / n) in *. destruct (Nat.lt_trichotomy q q') as [L|[L|L]]; nia.
Qed.
Lemma mod_ex n k r : r < n -> exists j, j < n /\ (k + j) mod n = r.
Proof.
  intros R. exists ((r + n * k - k) mod n). split; [apply Nat.mod_upper_bound; lia|].
  rewrite Nat.add_mod_idemp_r by lia. replace (k + (r + n * k - k)) with (r + k * n) by nia. rewrite Nat.mod_add by lia. now apply Nat.mod_small.
Qed.
Lemma deal_most n r k cs : 0 < n -> length cs <= n -> length (deal n r k cs) <= 1.
Proof.
  intros N. destruct (Nat.lt_ge_cases r n) as [R|R].
  2:{ intros _. rewrite deal_none; [cbn; lia|]. intros i _ E. pose proof (Nat.mod_upper_bound (k + i) n ltac:(lia)). lia. }
  revert k. induction cs as [|c cs IH]; intros k L; [cbn; lia|]. cbn [deal]. destruct (k mod n =? r) eqn:E; [|cbn [app]; apply IH; cbn in L; lia].
  apply Nat.eqb_eq in E. rewrite deal_none; [cbn; lia|]. intros i I X. cbn [length] in L. assert (X2 : (k + S i) mod n = (k + 0) mod n) by (rewrite Nat.add_0_r, E, <- X; f_equal; lia).
  apply mod_inj in X2; lia.
Qed.
Lemma deal_one n r k cs : r < n -> length cs = n -> exists x, deal n r k cs = [x] /\ In x cs.
Proof.
  intros R L. destruct (mod_ex n k r R) as (j & J & E). destruct (nth_error cs j) as [x|] eqn:X.
  2:{ apply nth_error_None in X. lia. }
  pose proof (nth_error_split _ _ X) as (a & b & -> & LA). exists x. split; [|apply in_or_app; right; now left].
  rewrite deal_app. cbn [deal]. rewrite LA, E, Nat.eqb_refl. rewrite app_length in L. cbn [length] in L.
  rewrite !deal_none; [reflexivity| |]; intros i I X'.
  - replace (S (k + j) + i) with (k + (S j + i)) in X' by lia. rewrite <- E in X'. apply mod_inj in X'; lia.
  - rewrite <- E in X'. apply mod_inj in X'; lia.
Qed.
Lemma deal_in n r cs : forall k x, In x (deal n r k cs) -> In x cs.
Proof. induction cs as [|c cs IH]; intros k x I; [exact I|]. cbn [deal] in I. apply in_app_or in I as [I|I]; [destruct (_ =? _); [destruct I as [<-|[]]; now left|destruct I]|]. right. eapply IH; exact I. Qed.
Lemma deal_nodup n r cs : forall k, NoDup cs -> NoDup (deal n r k cs).
Proof. induction cs as [|c cs IH]; intros k ND; cbn [deal]; [constructor|]. inversion ND; subst. destruct (_ =? _); cbn [app]; [constructor|]; auto. intros I. apply deal_in in I. auto. Qed.
Lemma share_calls n r cs : forall k evs, share n r k (map PCall cs ++ evs) = map ECmd (deal n r k cs) ++ share n r (k + length cs) evs.
Proof.
  induction cs as [|c cs IH]; intros k evs; cbn [map app share deal length]; [now rewrite Nat.add_0_r|]. rewrite IH, map_app, <- app_assoc.
  replace (S k + length cs) with (k + S (length cs)) by lia. f_equal. now destruct (_ =? _).
Qed.
Lemma share_replies n r rs k : share n r k (map PReply rs) = repeat EReply (count_occ Nat.eq_dec rs r).
Proof.
  induction rs as [|r' rs IH]; [reflexivity|]. cbn [map share count_occ]. rewrite IH. destruct (Nat.eq_dec r' r) as [->|E]; [now rewrite Nat.eqb_refl|].
  now rewrite (proj2 (Nat.eqb_neq _ _) E).
Qed.
Lemma idle s m : epend s = [] -> ep_run s (repeat EReply m) = s.
Proof. intros E. induction m as [|m IH]; [reflexivity|]. cbn [repeat]. rewrite ep_run_cons. unfold ep_step at 1. now rewrite E. Qed.
(** one runner that gets some calls at once, and at least as many answers *)
Lemma at_once_runner cs m : length cs <= m ->
  eres (ep_run start (map ECmd cs ++ repeat EReply m)) = match cs with [] => [] | c :: cs => (c, c) :: map (fun x => (x, last cs c)) (rev cs) end.
Proof.
  intros L. replace m with (length cs + (m - length cs)) by lia. rewrite repeat_app, app_assoc, ep_run_app.
  destruct cs as [|c [|d cs]].
  - rewrite idle; reflexivity.
  - rewrite idle; reflexivity.
  - rewrite idle.
    + rewrite C73_all_last. f_equal. replace (last (d :: cs) c) with (last cs d); [reflexivity|]. destruct cs as [|e cs]; [reflexivity|]. change (last (e :: cs) d = last (e :: cs) c). apply last_default.
    + rewrite ep_run_app. assert (E : ep_run start (map ECmd (c :: d :: cs)) = mkEp true (second c :: map first (d :: cs)) [c] None [] None false).
      { change (map ECmd (c :: d :: cs)) with (ECmd c :: map ECmd (d :: cs)). rewrite ep_run_cons, issue; reflexivity. }
      rewrite E. change (repeat EReply (length (c :: d :: cs))) with (EReply :: repeat EReply (S (length cs))). rewrite ep_run_cons. cbn - [ep_run rev repeat last].
      destruct (drain cs [] d (mkEp true (map first cs ++ [(d, true)]) [d] (Some c) [(c, c)] None false) eq_refl eq_refl eq_refl _ eq_refl) as (_ & _ & A). exact A.
Qed.
Lemma last_In (l : list nat) d : l <> [] -> In (last l d) l.
Proof. induction l as [|a [|b l] IH]; intros H; [contradiction|now left|]. right. apply IH. discriminate. Qed.

(** Calls made all at once, as in a generation: every one is answered.  The first of
    each runner gets its own value, all the others the value of the last one *)
Theorem C107_at_once : forall n cs rs, 1 <= n -> (forall r, r < n -> length cs <= count_occ Nat.eq_dec rs r) ->
  let p := pool_run n (map PCall cs ++ map PReply rs) in
  (forall r, r < n -> eres (pexec p r) = match deal n r 0 cs with [] => [] | c :: l => (c, c) :: map (fun x => (x, last l c)) (rev l) end) /\
  (forall c, In c cs -> exists r v, r < n /\ In (c, v) (eres (pexec p r))).
Proof.
  intros n cs rs N RS p.
  assert (PL : plain (map PCall cs ++ map PReply rs)).
  { intros e I. apply in_app_or in I as [I|I]; apply in_map_iff in I as (x & <- & _); exact I. }
  assert (DL : forall r, length (deal n r 0 cs) <= length cs).
  { intros r. generalize 0. clear. induction cs as [|c cs IH]; intros k; [cbn; lia|]. cbn [deal]. rewrite app_length. specialize (IH (S k)). destruct (_ =? _); cbn [length]; lia. }
  assert (A : forall r, r < n -> eres (pexec p r) = match deal n r 0 cs with [] => [] | c :: l => (c, c) :: map (fun x => (x, last l c)) (rev l) end).
  { intros r R. destruct (C107_in_turn n _ N PL) as (_ & _ & _ & _ & _ & X). unfold p. rewrite X, share_calls, share_replies. apply at_once_runner. specialize (DL r). specialize (RS r R). lia. }
  split; [exact A|]. intros c I.
  assert (D : exists r, r < n /\ In c (deal n r 0 cs)).
  { clear - I N. revert I. generalize 0. induction cs as [|c' cs IH]; intros k I; [destruct I|]. destruct I as [->|I].
    - exists (k mod n). split; [apply Nat.mod_upper_bound; lia|]. cbn [deal]. rewrite Nat.eqb_refl. now left.
    - destruct (IH (S k) I) as (r & R & J). exists r. split; auto. cbn [deal]. apply in_or_app. now right. }
  destruct D as (r & R & D). specialize (A r R). destruct (deal n r 0 cs) as [|x l]; [destruct D|]. exists r. destruct D as [->|D].
  - exists c. split; auto. rewrite A. now left.
  - exists (last l x). split; auto. rewrite A. right. apply in_map_iff. exists c. split; auto. now apply in_rev in D.
Qed.
(** so all get their own values just when there are at most two for each runner *)
Theorem C107_two_each : forall n cs rs, 1 <= n -> NoDup cs -> (forall r, r < n -> length cs <= count_occ Nat.eq_dec rs r) ->
  ((forall r c v, r < n -> In (c, v) (eres (pexec (pool_run n (map PCall cs ++ map PReply rs)) r)) -> v = c) <-> length cs <= 2 * n).
Proof.
  intros n cs rs N ND RS. destruct (C107_at_once n cs rs N RS) as [A _]. split.
  - intros H. destruct (Nat.le_gt_cases (length cs) (2 * n)) as [L|L]; auto. exfalso.
    assert (S1 : cs = firstn n cs ++ firstn n (skipn n cs) ++ skipn n (skipn n cs)) by now rewrite !firstn_skipn.
    assert (L1 : length (firstn n cs) = n) by (rewrite firstn_length; lia).
    assert (L2 : length (firstn n (skipn n cs)) = n) by (rewrite firstn_length, skipn_length; lia).
    assert (L3 : length (skipn n (skipn n cs)) = length cs - 2 * n) by (rewrite !skipn_length; lia).
    specialize (A 0 N). pose proof (deal_nodup n 0 cs 0 ND) as NDD.
    destruct (skipn n (skipn n cs)) as [|z rest] eqn:E3; [cbn in L3; lia|].
    destruct (deal_one n 0 0 (firstn n cs) N L1) as (x & X & _). destruct (deal_one n 0 n (firstn n (skipn n cs)) N L2) as (y & Y & _).
    assert (D : deal n 0 0 cs = x :: y :: z :: deal n 0 (S (n + n)) rest).
    { rewrite S1 at 1. rewrite deal_app, X, L1. cbn [Nat.add]. rewrite deal_app, Y, L2. cbn [deal app].
      replace ((n + n) mod n) with 0; [reflexivity|]. replace (n + n) with (2 * n) by lia. now rewrite Nat.mod_mul by lia. }
    rewrite D in *. specialize (H 0 y (last (y :: z :: deal n 0 (S (n + n)) rest) x) N).
    rewrite A in H. assert (HI : last (y :: z :: deal n 0 (S (n + n)) rest) x = y).
    { apply H. right. apply in_map_iff. exists y. split; auto. apply in_rev. rewrite rev_involutive. now left. }
    change (last (z :: deal n 0 (S (n + n)) rest) x = y) in HI. pose proof (last_In (z :: deal n 0 (S (n + n)) rest) x ltac:(discriminate)) as LI. rewrite HI in LI.
    inversion NDD as [|? ? _ ND2]; subst. inversion ND2; subst. contradiction.
  - intros L r c v R I. rewrite (A r R) in I.
    assert (DL : length (deal n r 0 cs) <= 2).
    { rewrite <- (firstn_skipn n cs), deal_app, app_length. pose proof (deal_most n r 0 (firstn n cs) N ltac:(rewrite firstn_length; lia)).
      pose proof (deal_most n r (0 + length (firstn n cs)) (skipn n cs) N ltac:(rewrite skipn_length; lia)). lia. }
    destruct (deal n r 0 cs) as [|x [|y [|z l]]]; [destruct I| | |cbn in DL; lia].
    + destruct I as [I|[]]. injection I as <- <-. reflexivity.
    + destruct I as [I|[I|[]]]; injection I as <- <-; reflexivity.
Qed.

(** the calls with None, and the answers of runner [r]'s executable *)
Definition nones (evs : list pev) : nat := length (filter (fun e => match e with PNone => true | _ => false end) evs).
Definition stops (evs : list pev) : nat := length (filter (fun e => match e with PStop => true | _ => false end) evs).
Definition replies (r : nat) (evs : list pev) : list eev := flat_map (fun e => match e with PReply r' => if r' =? r then [EReply] else [] | _ => [] end) evs.

Definition quiet (p : pool) : Prop := forall r, erun (pexec p r) = None /\ ekilled (pexec p r) = false.
Lemma ep_quiet s e : erun s = None /\ ekilled s = false -> erun (ep_step s e) = None /\ ekilled (ep_step s e) = false.
Proof.
  intros [A B]. destruct e; cbn [ep_step].
  - destruct (elocked s); auto. unfold do_release. destruct (ep_release _) as [[[? ?] ?] ?]. auto.
  - destruct (elocked s); auto.
  - destruct (epend s); auto. destruct (elocked s); auto. unfold do_release. destruct (ep_release _) as [[[? ?] ?] ?]. auto.
  - rewrite A. auto.
Qed.
Lemma ep_stop s : erun s = None -> ep_step s EShutdown = s.
Proof. intros E. unfold ep_step. now rewrite E. Qed.
Lemma quiet_on r e f : (forall r, erun (f r) = None /\ ekilled (f r) = false) -> forall r', erun (on r e f r') = None /\ ekilled (on r e f r') = false.
Proof. intros H r'. unfold on. destruct (r' =? r); [apply ep_quiet|]; apply H. Qed.
Lemma got_last l n : got (length l) (l ++ [n]) = l ++ [pred n].
Proof. induction l as [|a l IH]; [reflexivity|]. cbn [length app got]. now rewrite IH. Qed.

(** once all runners are gone, nothing is put back *)
Lemma gets_dead n j : forall m p, pqueue p = [] ->
  gets n j m p = mkPool (pexec p) [] (pwait p ++ repeat (WStop j) m) (perr p) (pstops p) (pover p) (ptrig p).
Proof.
  induction m as [|m IH]; intros p Q; cbn [gets repeat].
  - destruct p; cbn in *; subst. now rewrite app_nil_r.
  - unfold get. rewrite Q. rewrite IH by reflexivity. cbn. now rewrite <- app_assoc.
Qed.
Lemma dead_steps n evs : forall p, pqueue p = [] -> let p' := fold_left (pool_step n) evs p in
  pqueue p' = [] /\ pstops p' = pstops p ++ repeat n (stops evs) /\ forall r, pexec p' r = ep_run (pexec p r) (replies r evs).
Proof.
  induction evs as [|e evs IH]; intros p Q; cbn [fold_left]; [cbn; now rewrite app_nil_r|].
  assert (G : pqueue (pool_step n p e) = [] /\ pstops (pool_step n p e) = pstops p ++ repeat n (stops [e]) /\ forall r, pexec (pool_step n p e) r = ep_run (pexec p r) (replies r [e])).
  { destruct e as [c| |r'|]; unfold pool_step.
    - unfold get. rewrite Q. cbn. now rewrite app_nil_r.
    - unfold get. rewrite Q. cbn. now rewrite app_nil_r.
    - cbn. rewrite app_nil_r. split; auto. split; auto. intros r. unfold on. rewrite (Nat.eqb_sym r). now destruct (r' =? r).
    - cbv zeta. rewrite gets_dead by exact Q. cbn. auto. }
  destruct G as (G1 & G2 & G3). destruct (IH _ G1) as (H1 & H2 & H3). split; [exact H1|]. split.
  - rewrite H2, G2, <- app_assoc, <- repeat_app. f_equal. f_equal. unfold stops. change (e :: evs) with ([e] ++ evs). now rewrite filter_app, app_length.
  - intros r. rewrite H3, G3, <- ep_run_app. f_equal. change (e :: evs) with ([e] ++ evs). unfold replies. now rewrite flat_map_app.
Qed.
(** before any shutdown: every call with None has taken a runner away *)
Definition alive (n k : nat) (p : pool) : Prop :=
  length (pqueue p) = n - k /\ (pwait p = [] \/ pqueue p = []) /\ pstops p = [] /\ quiet p.
Lemma alive_steps n evs : stops evs = 0 -> forall k p, alive n k p -> alive n (k + nones evs) (fold_left (pool_step n) evs p).
Proof.
  induction evs as [|e evs IH]; intros ST k p A; cbn [fold_left]; [cbn; now rewrite Nat.add_0_r|].
  assert (G : alive n (k + nones [e]) (pool_step n p e)).
  { destruct A as (L & W & S0 & Qu). destruct e as [c| |r'|]; unfold pool_step.
    - cbn [nones filter length]. rewrite Nat.add_0_r. unfold get. destruct (pqueue p) as [|r q] eqn:Q.
      + split; [exact L|]. split; [now right|]. split; [exact S0|exact Qu].
      + destruct W as [W|W]; [|discriminate W]. rewrite W. cbn [put pqueue pexec perr pstops pover ptrig]. cbn [length] in L.
        rewrite (proj2 (Nat.ltb_lt _ _)) by lia. split; [cbn [pqueue]; rewrite app_length; cbn [length]; lia|]. split; [now left|]. split; [exact S0|]. intros r'. apply quiet_on. exact Qu.
    - change (nones [PNone]) with 1. unfold get. destruct (pqueue p) as [|r q] eqn:Q.
      + split; [cbn in *; lia|]. split; [now right|]. split; [exact S0|exact Qu].
      + destruct W as [W|W]; [|discriminate W]. rewrite W. cbn [put pqueue pexec perr pstops pover ptrig]. cbn [length] in L.
        split; [cbn; lia|]. split; [now left|]. split; [exact S0|exact Qu].
    - change (nones [PReply r']) with 0. rewrite Nat.add_0_r. split; [exact L|]. split; [exact W|]. split; [exact S0|]. intros r. apply quiet_on. exact Qu.
    - discriminate ST. }
  assert (ST' : stops evs = 0) by (destruct e; [exact ST|exact ST|exact ST|discriminate ST]).
  replace (k + nones (e :: evs)) with (k + nones [e] + nones evs); [apply IH; auto|]. change (e :: evs) with ([e] ++ evs). unfold nones. rewrite filter_app, app_length. lia.
Qed.
Lemma alive_init n : alive n 0 (pool_init n).
Proof. split; [cbn; rewrite seq_length; lia|]. split; [now left|]. split; [reflexivity|]. intros r. split; reflexivity. Qed.
Lemma alive_run n evs : stops evs = 0 -> alive n (nones evs) (pool_run n evs).
Proof. intros H. exact (alive_steps n evs H 0 _ (alive_init n)). Qed.
Lemma gets_alive n l : forall m p c, length (pqueue p) <= m -> (pwait p = [] \/ pqueue p = []) -> quiet p -> pstops p = l ++ [c] ->
  let p' := gets n (length l) m p in
  pqueue p' = [] /\ pstops p' = l ++ [c - length (pqueue p)] /\ quiet p' /\ forall r, pexec p' r = pexec p r.
Proof.
  induction m as [|m IH]; intros p c L W Q S0; cbn [gets].
  - destruct (pqueue p) as [|r q] eqn:E; [|cbn in L; lia]. cbn. rewrite Nat.sub_0_r. auto.
  - destruct (pqueue p) as [|r q] eqn:E.
    + assert (X := gets_dead n (length l) (S m) p E). cbn [gets] in X. rewrite X. cbn [pqueue pstops pexec length]. rewrite Nat.sub_0_r. auto 10.
    + destruct W as [W|W]; [|discriminate W]. unfold get. rewrite E, W. cbn [put].
      set (p0 := mkPool (pexec p) q [] (perr p) (pstops p) (pover p) (ptrig p)).
      assert (PE : forall r', pexec (runner_shutdown r p0) r' = pexec p r').
      { intros r'. unfold runner_shutdown. cbn [ptrig p0]. destruct (existsb _ _); [reflexivity|]. cbn [pexec p0]. unfold on. destruct (r' =? r); [|reflexivity]. apply ep_stop. apply Q. }
      assert (PQ : pqueue (runner_shutdown r p0) = q /\ pstops (runner_shutdown r p0) = pstops p) by (unfold runner_shutdown; destruct (existsb _ _); auto).
      destruct PQ as [PQ PS]. set (p1 := mkPool _ _ _ _ _ _ _).
      assert (H := IH p1 (pred c)). cbn [pqueue pstops pexec p1 pwait] in H. destruct H as (H1 & H2 & H3 & H4).
      * rewrite PQ. cbn in L. lia.
      * now left.
      * intros r'. cbn [pexec p1]. rewrite PE. apply Q.
      * rewrite PS, S0. apply got_last.
      * split; [exact H1|]. split; [rewrite H2, PQ; f_equal; f_equal; cbn [length]; lia|]. split; [exact H3|]. intros r'. rewrite H4. cbn [pexec p1]. apply PE.
Qed.

(** The first shutdown fires at once, or never: it waits for as many runners as calls with
    None took away.  Any further one never fires (it waits for all of them).  The
    executables are not affected by it, and no call made afterwards is ever written to
    one of them *)
Theorem C107_shutdown : forall n evs evs', stops evs = 0 ->
  let p := pool_run n (evs ++ PStop :: evs') in
  nth_error (pstops p) 0 = Some (min n (nones evs)) /\ (forall j m, nth_error (pstops p) (S j) = Some m -> m = n) /\
  (forall r, pexec p r = ep_run (pexec (pool_run n evs) r) (replies r evs') /\ ekilled (pexec p r) = false).
Proof.
  intros n evs evs' ST p. unfold p, pool_run. rewrite fold_left_app. cbn [fold_left]. fold (pool_run n evs).
  pose proof (alive_run n evs ST) as (L & W & S0 & Q). set (a := pool_run n evs) in *.
  assert (G : pqueue (pool_step n a PStop) = [] /\ pstops (pool_step n a PStop) = [n - length (pqueue a)] /\ quiet (pool_step n a PStop) /\ forall r, pexec (pool_step n a PStop) r = pexec a r).
  { unfold pool_step. cbv zeta. rewrite S0. cbn [length app].
    apply (gets_alive n [] n (mkPool (pexec a) (pqueue a) (pwait a) (perr a) [n] (pover a) (ptrig a)) n); [cbn [pqueue]; lia|exact W|exact Q|reflexivity]. }
  destruct G as (G1 & G2 & G3 & G4). destruct (dead_steps n evs' _ G1) as (H1 & H2 & H3). rewrite H2, G2.
  split; [cbn [nth_error app]; f_equal; lia|]. split.
  - intros j m E. cbn [nth_error app] in E. apply nth_error_In, repeat_spec in E. exact E.
  - intros r. rewrite H3, G4. split; [reflexivity|]. destruct (Q r) as [A B]. revert A B. generalize (pexec a r). generalize (replies r evs'). clear.
    induction l as [|e l IH]; intros s A B; [exact B|]. rewrite ep_run_cons. destruct (ep_quiet s e (conj A B)). now apply IH.
Qed.
(** A call with None takes a runner away for good: after [n] of them no call is ever
    written to an executable *)
Theorem C107_None : forall n evs evs', stops evs = 0 -> n <= nones evs ->
  forall r, pexec (pool_run n (evs ++ evs')) r = ep_run (pexec (pool_run n evs) r) (replies r evs').
Proof.
  intros n evs evs' ST L r. unfold pool_run. rewrite fold_left_app. fold (pool_run n evs).
  destruct (alive_run n evs ST) as (A & _). apply dead_steps. apply length_zero_iff_nil. lia.
Qed.
(** and each such call that gets a runner ends with TypeError: before any shutdown, as
    many as there were, but no more than there are runners *)
Theorem C107_None_error : forall n evs, stops evs = 0 -> perr (pool_run n evs) = min n (nones evs).
Proof.
  intros n evs. unfold pool_run.
  assert (G : forall evs k p, alive n k p -> stops evs = 0 -> perr p = min n k -> perr (fold_left (pool_step n) evs p) = min n (k + nones evs)).
  { clear evs. induction evs as [|e evs IH]; intros k p A ST E; cbn [fold_left]; [cbn; now rewrite Nat.add_0_r|].
    assert (ST1 : stops [e] = 0) by (destruct e; [reflexivity|reflexivity|reflexivity|discriminate ST]).
    assert (ST' : stops evs = 0) by (destruct e; [exact ST|exact ST|exact ST|discriminate ST]).
    assert (A' := alive_steps n [e] ST1 k p A). cbn [fold_left] in A'.
    replace (k + nones (e :: evs)) with (k + nones [e] + nones evs) by (change (e :: evs) with ([e] ++ evs); unfold nones; rewrite filter_app, app_length; lia).
    apply IH; auto. destruct A as (L & W & _). destruct e as [c| |r'|]; unfold pool_step.
    - change (nones [PCall c]) with 0. rewrite Nat.add_0_r. unfold get. destruct (pqueue p) as [|r q] eqn:Q; [exact E|].
      destruct W as [W|W]; [|discriminate W]. rewrite W. cbn [put pqueue]. destruct (_ <? _); exact E.
    - change (nones [PNone]) with 1. unfold get. destruct (pqueue p) as [|r q] eqn:Q; cbn [length] in L; [cbn [perr]; lia|].
      destruct W as [W|W]; [|discriminate W]. rewrite W. cbn [put perr]. lia.
    - change (nones [PReply r']) with 0. rewrite Nat.add_0_r. exact E.
    - discriminate ST1. }
  intros ST. rewrite (G evs 0 (pool_init n) (alive_init n) ST); [reflexivity|]. cbn. lia.
Qed.
Example C107_None_error_ex : perr (pool_run 2 [PCall 1; PNone; PNone; PNone; PReply 0]) = 2 /\ perr (pool_run 2 [PNone; PCall 1]) = 1.
Proof. split; reflexivity. Qed.
(** "fires when they've all stopped": it fires with an executable at work and alive *)
Theorem C107_stopped_refuted : ~ (forall n evs r, r < n -> nth_error (pstops (pool_run n evs)) 0 = Some 0 ->
  ekilled (pexec (pool_run n evs) r) = true \/ epend (pexec (pool_run n evs) r) = []).
Proof. intros H. destruct (H 1 [PCall 5; PStop] 0 ltac:(lia) eq_refl) as [X|X]; discriminate X. Qed.
(** "the next free runner": the third call goes to the first of two runners, which is
    at work, and the second one is free *)
Theorem C107_free_refuted : ~ (forall n evs c r, 1 <= n -> plain evs ->
  commands (share n r 0 (evs ++ [PCall c])) <> commands (share n r 0 evs) ->
  epend (pexec (pool_run n evs) r) <> [] -> forall r', r' < n -> epend (pexec (pool_run n evs) r') <> []).
Proof.
  intros H. specialize (H 2 [PCall 5; PCall 6; PReply 1] 7 0 ltac:(lia)). apply H with (r' := 1); try reflexivity.
  - intros e I. cbn in I. intuition subst; exact I.
  - discriminate.
  - discriminate.
  - lia.
Qed.
(** forty calls at once, as in the example's generations, with four runners *)
Example C107_forty : let cs := seq 0 40 in let rs := flat_map (fun _ => [0; 1; 2; 3]) (seq 0 40) in
  NoDup cs /\ (forall r, r < 4 -> length cs <= count_occ Nat.eq_dec rs r) /\ 2 * 4 < length cs /\
  In (4, 36) (eres (pexec (pool_run 4 (map PCall cs ++ map PReply rs)) 0)).
Proof.
  split; [apply seq_NoDup|]. split; [|split; [cbn; lia|vm_compute; auto 12]].
  intros r R. do 4 (destruct r as [|r]; [vm_compute; lia|]). lia.
Qed.
Example C107_own_ex : let evs := [PCall 1; PCall 2; PReply 1; PCall 3; PReply 0; PReply 0; PCall 4] in plain evs /\
  eres (pexec (pool_run 2 evs) 0) = [(1, 1); (3, 3)] /\ eres (pexec (pool_run 2 evs) 1) = [(2, 2)] /\ forall r, at_most_two (share 2 r 0 evs).
Proof.
  split; [intros e I; cbn in I; intuition subst; exact I|]. split; [reflexivity|]. split; [reflexivity|].
  intros [|[|r]]; cbn; intros b c a E.
  - do 4 (destruct b as [|? b]; [injection E as <- <- || discriminate E; cbn; lia|injection E as <- E]). destruct b; discriminate E.
  - do 3 (destruct b as [|? b]; [injection E as <- <- || discriminate E; cbn; lia|injection E as <- E]). destruct b; discriminate E.
  - destruct b; discriminate E.
Qed.
Example C107_None_ex : let evs := [PCall 1; PNone; PNone; PReply 0] in stops evs = 0 /\ 2 <= nones evs /\
  pstops (pool_run 2 (evs ++ [PStop; PCall 3])) = [2] /\ eres (pexec (pool_run 2 evs) 0) = [(1, 1)].
Proof. split; [reflexivity|]. split; [cbn; lia|]. split; reflexivity. Qed.

Print Assumptions C107_in_turn.
Print Assumptions C107_own.
Print Assumptions C107_at_once.
Print Assumptions C107_two_each.
Print Assumptions C107_shutdown.
Print Assumptions C107_None.
Print Assumptions C107_None_error.
Print Assumptions C107_stopped_refuted.
Print Assumptions C107_free_refuted.
