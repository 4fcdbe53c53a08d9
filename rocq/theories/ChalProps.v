(** * Properties C20-C24, C57 and the population part of C02: concurrent challenges *)
From Coq Require Import List Bool Arith Lia ZArith Reals.
From Verif Require Import Flt FltMore Py IndivModel IndivProofs ParamModel ParamProofs ParamProps FManModel FManProps.
From Verif Require Import ChalModel ChalProofs ChalSerial ChalLive ChalInst.
Import ListNotations.
Local Open Scope nat_scope.

(** ** Vocabulary *)
(** the challenges started in an execution, in order *)
Definition requests (es : list event) : list quad :=
  flat_map (fun e => match e with ERequest q => [q] | _ => [] end) es.
(** all challenges have run to their end *)
Definition all_done {I} (s : st I) : Prop := forall c x, nth_error (cs s) c = Some x -> cpc x = PDone.
(** challenge [c] has been given the lock of slot [k] and has not released it *)
Definition holds {I} (s : st I) (c k : nat) : Prop :=
  exists q p, nth_error (cs s) c = Some (mkChal q p) /\
  match p with
  | PWait pend => In k (quad_list q) /\ ~ In k pend
  | PRel _ _ _ _ l => k = kt q \/ In k l
  | PEval _ _ | PHist | PRelT | PFail => k = kt q
  | PRelAll _ | PDone => False
  end.
(** [seq_step]/[seq_run] (ChalSerial.v) are the textbook algorithm: challenges
    one at a time, each reading the current population and replacing the target
    at once when its challenger is better *)

Section Generic.
Context {I : Type}.
#[local] Arguments enqueue : simpl never.
#[local] Arguments quad_list : simpl never.
#[local] Arguments filter : simpl never.
Variable mk : nat -> I -> I -> I -> I -> mkres I.
Variable ev : nat -> I -> I -> option I.
Variable better : I -> I -> bool.
Variable histcrash : nat -> bool.
Variable xSSE : bool.
Notation step := (step mk ev better histcrash xSSE).
Notation exec := (exec mk ev better histcrash xSSE).
Notation gexec := (gexec mk ev better histcrash xSSE).
Notation seq_run := (seq_run mk ev better).
Ltac inv_opt := match goal with H : Some _ = Some _ |- _ => injection H as <- end.

Lemma step_reqs : forall s e s', step s e = Some s' -> map cq (cs s') = map cq (cs s) ++ requests [e].
Proof.
  assert (RL : forall k s, map cq (cs (release1 k s)) = map (@cq I) (cs s)).
  { intros k s. apply nth_error_ext. intros d. rewrite !nth_error_map, release1_cs.
    destruct (nth_error (cs s) d) as [x|]; auto. destruct (match tl (L s k) with [] => false | h :: _ => d =? h end); auto.
    simpl. now rewrite grant_cq. }
  assert (GO : forall (s : st I) c p, map cq (cs (goto s c p)) = map cq (cs s)) by (intros; apply set_pc_cq).
  intros s e s' H. unfold requests. destruct e as [q|c|c|c|c|c|c| | |n]; simpl in H |- *; rewrite ?app_nil_r.
  - destruct (run s); [|discriminate]. simpl in H. destruct (okquad _ q); [|discriminate].
    destruct (prun s); inv_opt; simpl; rewrite map_app; reflexivity.
  - destruct (nth_error (cs s) c) as [[q p]|]; [|discriminate]. destruct p as [[|]| | | | | | |]; try discriminate.
    repeat (match goal with H : match ?x with _ => _ end = _ |- _ => destruct x end); inv_opt; apply GO.
  - destruct (nth_error (cs s) c) as [[q p]|]; [|discriminate]. destruct p as [|[|? ?]|? ? ? ? [|? ?]| | | | |]; try discriminate; inv_opt;
    rewrite ?RL; apply GO.
  - destruct (nth_error (cs s) c) as [[q p]|]; [|discriminate]. destruct p as [| |? ? ? ? [|? ?]| | | | |]; try discriminate.
    destruct (mk _ _ _ _ _); inv_opt; apply GO.
  - destruct (nth_error (cs s) c) as [[q p]|]; [|discriminate]. destruct p; try discriminate.
    repeat (match goal with H : match ?x with _ => _ end = _ |- _ => destruct x end); inv_opt; apply GO.
  - destruct (nth_error (cs s) c) as [[q p]|]; [|discriminate]. destruct p; try discriminate. inv_opt. apply GO.
  - destruct (nth_error (cs s) c) as [[q p]|]; [|discriminate]. destruct p; try discriminate. inv_opt. rewrite RL. apply GO.
  - now inv_opt.
  - now inv_opt.
  - destruct (nth_error (abq s) n); [|discriminate]. inv_opt. now rewrite RL.
Qed.
Lemma exec_reqs : forall es s s', exec s es = Some s' -> map cq (cs s') = map cq (cs s) ++ requests es.
Proof.
  induction es as [|e es IH]; simpl; intros s s' H; [inv_opt; now rewrite app_nil_r|].
  destruct (step s e) as [s1|] eqn:E; [|discriminate]. rewrite (IH _ _ H), (step_reqs _ _ _ E), <- app_assoc. f_equal.
  unfold requests; simpl. now rewrite app_nil_r.
Qed.
Lemma exec_app : forall es1 es2 s, exec s (es1 ++ es2) = match exec s es1 with Some s1 => exec s1 es2 | None => None end.
Proof. induction es1 as [|e es1 IH]; simpl; intros; auto. destruct (step s e); auto. Qed.
Lemma gexec_app : forall es1 es2 s, gexec s (es1 ++ es2) = match gexec s es1 with Some s1 => gexec s1 es2 | None => None end.
Proof. induction es1 as [|e es1 IH]; simpl; intros; auto. destruct (targets_free s e); auto. destruct (step s e); auto. Qed.

(** *** C20 *)
Theorem C20_async_equals_sequential : forall p0 es s,
  exec (init p0) es = Some s -> run s = true -> prun s = true -> all_done s ->
  pop s = seq_run 0 (requests es) p0.
Proof.
  intros p0 es s H R Pr D.
  assert (si : SI mk ev better p0 s).
  { eapply SI_exec; [|split; eauto|exact H]. apply SI_init. split; reflexivity. }
  assert (EQ : reqs s = requests es) by apply (exec_reqs _ _ _ H).
  apply nth_error_ext. intros k.
  destruct (le_lt_dec (length (pop s)) k) as [Hk|Hk].
  - rewrite (proj2 (nth_error_None _ _)) by auto. symmetry. apply nth_error_None. rewrite seq_run_len, <- (s_len _ _ _ _ _ si). auto.
  - rewrite (s_val _ _ _ _ _ si k Hk), EQ. f_equal.
    assert (E : L s k = []).
    { destruct (L s k) as [|h t] eqn:El; auto. exfalso.
      assert (HA : A s h k) by (apply (g_act s (s_g _ _ _ _ _ si)); rewrite El; now left).
      destruct HA as ([q p] & Hx & Hk'). assert (X := D _ _ Hx). simpl in X. subst p. destruct Hk'. }
    unfold lim. rewrite E. unfold P. f_equal. apply firstn_all2.
    rewrite <- EQ. unfold reqs. now rewrite map_length.
Qed.

(** *** C21 *)
Lemma holds_A : forall (s : st I) c k, holds s c k -> A s c k /\ ~ W s c k.
Proof.
  intros s c k (q & p & E & H). split.
  - exists (mkChal q p). split; auto. unfold act; simpl. destruct p; simpl; intuition.
  - intros (x & Ex & Hp). rewrite E in Ex. injection Ex as <-. unfold pend in Hp; simpl in Hp. destruct p; simpl in *; tauto.
Qed.
Theorem C21_exclusive : forall p0 es s c d k,
  exec (init p0) es = Some s -> run s = true -> prun s = true ->
  holds s c k -> holds s d k -> c = d.
Proof.
  intros p0 es s c d k H R Pr Hc Hd.
  assert (si : SI mk ev better p0 s).
  { eapply SI_exec; [|split; eauto|exact H]. apply SI_init. split; reflexivity. }
  apply holds_A in Hc, Hd. destruct Hc as [Ac Wc]. destruct Hd as [Ad Wd].
  destruct (head_of mk ev better p0 s c k si) as [t Ht]; auto. { eapply A_bound; eauto. }
  destruct (head_of mk ev better p0 s d k si) as [t' Ht']; auto. { eapply A_bound; eauto. }
  congruence.
Qed.
(** what a challenge works with was read while it held all four locks *)
Theorem C21_reads_under_lock : forall p0 es s c s' q it ib i0 i1 l,
  exec (init p0) es = Some s -> run s = true -> prun s = true ->
  step s (EResume c) = Some s' -> nth_error (cs s') c = Some (mkChal q (PRel it ib i0 i1 l)) ->
  (forall k, In k (quad_list q) -> holds s c k) /\
  nth_error (pop s) (kt q) = Some it /\ nth_error (pop s) (kb q) = Some ib /\
  nth_error (pop s) (k0 q) = Some i0 /\ nth_error (pop s) (k1 q) = Some i1.
Proof.
  intros p0 es s c s' q it ib i0 i1 l H R Pr Hs Hc. simpl in Hs.
  destruct (nth_error (cs s) c) as [[q' p]|] eqn:E; [|discriminate]. destruct p as [[|]| | | | | | |]; try discriminate.
  rewrite R in Hs.
  destruct (nth_error (pop s) (kt q')) eqn:E1; [|inv_opt; rewrite goto_cs, Nat.eqb_refl, E in Hc; discriminate].
  destruct (nth_error (pop s) (kb q')) eqn:E2; [|inv_opt; rewrite goto_cs, Nat.eqb_refl, E in Hc; discriminate].
  destruct (nth_error (pop s) (k0 q')) eqn:E3; [|inv_opt; rewrite goto_cs, Nat.eqb_refl, E in Hc; discriminate].
  destruct (nth_error (pop s) (k1 q')) eqn:E4; [|inv_opt; rewrite goto_cs, Nat.eqb_refl, E in Hc; discriminate].
  inv_opt. rewrite goto_cs, Nat.eqb_refl, E in Hc. simpl in Hc. injection Hc as -> <- <- <- <- _.
  repeat split; auto. intros k Hk. exists q, (PWait []). auto.
Qed.
(** only the evaluation of a challenge writes, only its own target slot, whose
    lock it holds, and the individual being replaced is the one compared with *)
Theorem C21_writes_own_target : forall p0 es s e s' k,
  exec (init p0) es = Some s -> run s = true -> prun s = true ->
  step s e = Some s' -> nth_error (pop s') k <> nth_error (pop s) k ->
  exists c q it ch r, e = EEvalDone c /\ nth_error (cs s) c = Some (mkChal q (PEval it ch)) /\ k = kt q /\
    holds s c k /\ nth_error (pop s) k = Some it /\ ev c it ch = Some r /\ better r it = true /\
    pop s' = upd k r (pop s).
Proof.
  intros p0 es s e s' k H R Pr Hs Hk.
  assert (si : SI mk ev better p0 s).
  { eapply SI_exec; [|split; eauto|exact H]. apply SI_init. split; reflexivity. }
  destruct (step_pop _ _ _ _ _ _ _ _ Hs) as [_ [Ep|(c & q & it & ch & r & -> & E & _ & Ev & Eb & Ep)]]; [congruence|].
  assert (TV := target_val mk ev better p0 s c q _ si E Logic.I eq_refl ltac:(now left)).
  assert (O := s_pc _ _ _ _ _ si c _ E). unfold okpc in O; simpl in O. destruct O as (O1 & _). rewrite O1 in TV.
  destruct (Nat.eq_dec k (kt q)) as [->|N]; [|rewrite Ep, upd_other in Hk; congruence].
  exists c, q, it, ch, r. repeat split; auto. exists q, (PEval it ch). auto.
Qed.

(** *** C22 *)
(** [internal] events are the code's own steps: everything except starting
    challenges, shutdown and abort.  [EEvalDone]/[EHistDone] stand for the
    evaluation and history.add finishing. *)
Definition no_crash : Prop := (forall c a b d e, mk c a b d e <> MkCrash) /\ (forall c, histcrash c = false).
Theorem C22_progress : forall p0 es s, no_crash ->
  exec (init p0) es = Some s -> ~ all_done s ->
  exists e s', internal e = true /\ step s e = Some s'.
Proof.
  intros p0 es s [C1 C2] H D.
  assert (NF := no_fail_exec mk ev better histcrash xSSE C1 C2 es (init p0) s eq_refl H).
  apply (progress mk ev better histcrash xSSE s); auto.
  - eapply G_exec; [apply G_init|exact H].
  - apply not_false_iff_true. intros U. apply D. intros c x Hx. rewrite existsb_nth in NF. assert (F := NF c x Hx).
    assert (U' : unfinished x = false).
    { apply not_true_iff_false. intros C. apply not_true_iff_false in U. apply U. apply existsb_exists. exists x. split; auto. eapply nth_error_In; eauto. }
    destruct x as [q p]; destruct p; auto; discriminate.
Qed.
Theorem C22_bounded : forall p0 es s es' s',
  exec (init p0) es = Some s -> forallb internal es' = true -> exec s es' = Some s' ->
  length es' <= length (requests es) * (length p0 + 9) + length (abq s).
Proof.
  intros p0 es s es' s' H Hi H'.
  assert (g : G s) by (eapply G_exec; [apply G_init|exact H]).
  assert (X := internal_bounded mk ev better histcrash xSSE es' s s' Hi H').
  assert (Y : length (cs s) = length (requests es)).
  { rewrite <- (map_length cq), (exec_reqs _ _ _ H), app_length. reflexivity. }
  assert (Z : length (locks s) = length p0).
  { clear - H. assert (K : forall es s s', exec s es = Some s' -> length (locks s') = length (locks s)).
    { assert (RL : forall k (s : st I), length (locks (release1 k s)) = length (locks s)) by (intros; apply release1_misc).
      clear. induction es as [|e es IH]; simpl; intros s s' H; [now inv_opt|].
      destruct (step s e) as [s1|] eqn:E; [|discriminate]. rewrite (IH _ _ H). clear H IH.
      assert (RL : forall k (s : st I), length (locks (release1 k s)) = length (locks s)) by (intros; apply release1_misc).
      destruct e as [q|c|c|c|c|c|c| | |n]; simpl in E.
      - destruct (run s); [|discriminate]. simpl in E. destruct (okquad _ q); [|discriminate].
        destruct (prun s); inv_opt; simpl; auto. apply enqueue_len.
      - destruct (nth_error (cs s) c) as [[q p]|]; [|discriminate]. destruct p as [[|]| | | | | | |]; try discriminate.
        repeat (match goal with H : match ?x with _ => _ end = _ |- _ => destruct x end); now inv_opt.
      - destruct (nth_error (cs s) c) as [[q p]|]; [|discriminate]. destruct p as [|[|? ?]|? ? ? ? [|? ?]| | | | |]; try discriminate; inv_opt;
        now rewrite ?RL.
      - destruct (nth_error (cs s) c) as [[q p]|]; [|discriminate]. destruct p as [| |? ? ? ? [|? ?]| | | | |]; try discriminate.
        destruct (mk _ _ _ _ _); now inv_opt.
      - destruct (nth_error (cs s) c) as [[q p]|]; [|discriminate]. destruct p; try discriminate.
        repeat (match goal with H : match ?x with _ => _ end = _ |- _ => destruct x end); now inv_opt.
      - destruct (nth_error (cs s) c) as [[q p]|]; [|discriminate]. destruct p; try discriminate. now inv_opt.
      - destruct (nth_error (cs s) c) as [[q p]|]; [|discriminate]. destruct p; try discriminate. inv_opt. now rewrite RL.
      - now inv_opt.
      - now inv_opt.
      - destruct (nth_error (abq s) n); [|discriminate]. inv_opt. now rewrite RL. }
    rewrite (K _ _ _ H). unfold init; simpl. apply repeat_length. }
  assert (M : forall (l : list (chal I)), list_sum (map (msr (length (locks s))) l) <= length l * (length p0 + 9) \/ exists c x, nth_error l c = Some x /\ length p0 + 9 < msr (length (locks s)) x).
  { induction l as [|x l IH]; [left; simpl; lia|]. destruct IH as [IH|(c & y & A1 & A2)]; [|right; exists (S c), y; auto].
    destruct (le_lt_dec (msr (length (locks s)) x) (length p0 + 9)); [left; simpl; lia|right; exists 0, x; auto]. }
  unfold total in X. destruct (M (cs s)) as [M1|(c & [q p] & A1 & A2)]; [lia|].
  exfalso. rewrite Z in A2. destruct p; unfold msr in A2; simpl in A2; try lia.
  - clear - A1 A2 H Z. 
    assert (K : forall es s s', (forall c q l, nth_error (cs s) c = Some (mkChal q (PRelAll l)) -> length l <= length (locks s)) ->
       exec s es = Some s' -> (forall c q l, nth_error (cs s') c = Some (mkChal q (PRelAll l)) -> length l <= length (locks s'))).
    { assert (RL : forall k (s : st I), (forall c q l, nth_error (cs s) c = Some (mkChal q (PRelAll l)) -> length l <= length (locks s)) ->
         (forall c q l, nth_error (cs (release1 k s)) c = Some (mkChal q (PRelAll l)) -> length l <= length (locks (release1 k s)))).
      { intros k s1 B d q1 l1. replace (length (locks (release1 k s1))) with (length (locks s1)) by (symmetry; apply release1_misc).
        rewrite release1_cs. destruct (nth_error (cs s1) d) as [[qy py]|] eqn:Ed; [|discriminate].
        destruct (match tl (L s1 k) with [] => false | h :: _ => d =? h end); intros E0; injection E0 as E1; [|subst; eauto].
        destruct py; simpl in E1; try discriminate; injection E1 as -> ->; eauto. }
      assert (GO : forall (s : st I) c p, (forall c q l, nth_error (cs s) c = Some (mkChal q (PRelAll l)) -> length l <= length (locks s)) ->
         (forall l, p = PRelAll l -> length l <= length (locks s)) ->
         (forall d q l, nth_error (cs (goto s c p)) d = Some (mkChal q (PRelAll l)) -> length l <= length (locks (goto s c p)))).
      { intros s1 c1 p1 B B' d q1 l1. rewrite goto_cs. cbn [goto with_cs locks]. destruct (d =? c1); eauto.
        destruct (nth_error (cs s1) c1); [|discriminate]. simpl. intros [= _ E0]. eauto. }
      clear - RL GO. induction es as [|e es IH]; simpl; intros s s' B H; [now inv_opt|].
      destruct (step s e) as [s1|] eqn:E; [|discriminate]. apply (IH s1); auto. clear H IH.
      destruct e as [q|c|c|c|c|c|c| | |n]; simpl in E.
      - destruct (run s); [|discriminate]. simpl in E. destruct (okquad _ q); [|discriminate].
        destruct (prun s); inv_opt; intros d q1 l1 Hd; cbn [cs locks with_cs] in *; rewrite ?enqueue_len; apply snoc_nth in Hd; destruct Hd as [Hd|[_ Hd]]; eauto; discriminate.
      - destruct (nth_error (cs s) c) as [[q p]|]; [|discriminate]. destruct p as [[|]| | | | | | |]; try discriminate.
        repeat (match goal with H : match ?x with _ => _ end = _ |- _ => destruct x end); inv_opt; apply GO; auto; intros l [= <-]; now rewrite seq_length.
      - destruct (nth_error (cs s) c) as [[q p]|] eqn:Ec; [|discriminate]. destruct p as [|[|k0 l0]|? ? ? ? [|? ?]| | | | |]; try discriminate; inv_opt;
        try apply RL; apply GO; auto; try discriminate. intros l [= <-]. apply B in Ec. simpl in Ec. lia.
      - destruct (nth_error (cs s) c) as [[q p]|]; [|discriminate]. destruct p as [| |? ? ? ? [|? ?]| | | | |]; try discriminate.
        destruct (mk _ _ _ _ _); inv_opt; apply GO; auto; discriminate.
      - destruct (nth_error (cs s) c) as [[q p]|]; [|discriminate]. destruct p; try discriminate.
        assert (B1 := GO s c PRelT B ltac:(discriminate)). assert (B2 := GO s c PHist B ltac:(discriminate)).
        repeat (match goal with H : match ?x with _ => _ end = _ |- _ => destruct x end); inv_opt; auto. destruct xSSE; auto.
      - destruct (nth_error (cs s) c) as [[q p]|]; [|discriminate]. destruct p; try discriminate. inv_opt. apply GO; auto. destruct (histcrash c); discriminate.
      - destruct (nth_error (cs s) c) as [[q p]|]; [|discriminate]. destruct p; try discriminate. inv_opt. apply RL, GO; auto. discriminate.
      - now inv_opt.
      - now inv_opt.
      - destruct (nth_error (abq s) n); [|discriminate]. inv_opt. now apply RL. }
    apply (K es (init p0) s) in A1; auto; [lia|]. intros [|c0]; discriminate.
  - destruct (g_rel s g c _ _ _ _ _ _ A1 eq_refl) as [IR ND]. apply NoDup_incl_length in IR; auto. simpl in IR.
    assert (4 <= length p0); [|lia].
    assert (OQ := proj2 (okquad_spec _ _) (g_quad s g c _ A1)). simpl in OQ. clear - OQ H Z g.
    rewrite <- Z, (g_len s g). unfold okquad in OQ. rewrite !andb_true_iff, !Nat.ltb_lt, !negb_true_iff, !Nat.eqb_neq in OQ. lia.
Qed.
(** so: without new requests every execution stops, and when nothing more can
    happen all challenges are done *)
Theorem C22_all_finish : forall p0 es s, no_crash -> exec (init p0) es = Some s ->
  (forall e, internal e = true -> step s e = None) -> all_done s.
Proof.
  intros p0 es s NC H N c x Hx. destruct (cpc x) eqn:E; auto;
  (destruct (C22_progress p0 es s NC H) as (e & s' & Ei & Es); [intros D; rewrite (D c x Hx) in E; discriminate|rewrite (N e Ei) in Es; discriminate]).
Qed.

(** *** C24 *)
Lemma no_new : forall es s s', run s = false -> exec s es = Some s' -> requests es = [].
Proof.
  induction es as [|e es IH]; simpl; intros s s' R H; auto.
  destruct (step s e) as [s1|] eqn:E; [|discriminate]. destruct (step_pop _ _ _ _ _ _ _ _ E) as [R1 _].
  unfold requests in *. simpl. destruct e; simpl; try (now apply (IH s1 s'); auto).
  simpl in E. rewrite R in E. discriminate.
Qed.
Theorem C24_frozen_after_shutdown : forall s es1 es2 s1 s2,
  exec s es1 = Some s1 -> exec s (es1 ++ EShutdown :: es2) = Some s2 ->
  pop s2 = pop s1 /\ run s2 = false /\ requests es2 = [].
Proof.
  intros s es1 es2 s1 s2 H1 H2. rewrite exec_app, H1 in H2. simpl in H2.
  destruct (frozen mk ev better histcrash xSSE es2 (mkSt (pop s1) (locks s1) (cs s1) false (prun s1) (abq s1)) s2 eq_refl H2) as [E R]. simpl in E. split; auto. split; auto.
  match type of H2 with exec ?x _ = _ => exact (no_new es2 x s2 eq_refl H2) end.
Qed.
(** a fatal evaluation freezes the population likewise *)
Theorem C24_frozen_after_fatal : forall s c es s1 s2 q it ch,
  nth_error (cs s) c = Some (mkChal q (PEval it ch)) -> ev c it ch = None ->
  step s (EEvalDone c) = Some s1 -> exec s1 es = Some s2 -> pop s2 = pop s /\ run s2 = false.
Proof.
  intros s c es s1 s2 q it ch E Ev Hs H. simpl in Hs. rewrite E, Ev in Hs. inv_opt.
  match type of H with exec ?x _ = _ => destruct (frozen mk ev better histcrash xSSE es x s2 eq_refl H) as [-> ->]; auto end.
Qed.
Theorem C24_second_shutdown : forall s s1 s2, step s EShutdown = Some s1 -> step s1 EShutdown = Some s2 -> s2 = s1.
Proof. intros s s1 s2 H1 H2. simpl in *. injection H1 as <-. injection H2 as <-. reflexivity. Qed.
(** *** C23 *)
(** [gexec]: executions in which no challenge is started for a target that has
    an unfinished one, as the generation loop ensures (de.py:590-610) *)
Lemma slot_step : forall s e s' k a b, GI s -> step s e = Some s' ->
  nth_error (pop s) k = Some a -> nth_error (pop s') k = Some b -> a = b \/ better b a = true.
Proof.
  intros s e s' k a b gi H Ha Hb. destruct (step_pop _ _ _ _ _ _ _ _ H) as [_ [E|(c & q & it & ch & r & -> & E & _ & _ & Eb & Ep)]].
  - left. congruence.
  - rewrite Ep in Hb. assert (V := gi_val s gi c _ it E eq_refl). simpl in V.
    destruct (Nat.eq_dec k (kt q)) as [->|N].
    + rewrite upd_same in Hb by (apply nth_error_Some; congruence). right. congruence.
    + rewrite upd_other in Hb by auto. left; congruence.
Qed.
Hypothesis better_trans : forall a b c, better a b = true -> better b c = true -> better a c = true.
Lemma step_len : forall s e s', step s e = Some s' -> length (pop s') = length (pop s).
Proof.
  intros s e s' H. destruct (step_pop _ _ _ _ _ _ _ _ H) as [_ [->|(c & q & it & ch & r & _ & _ & _ & _ & _ & ->)]]; auto. apply upd_length.
Qed.
Lemma slot_exec : forall es s s' k a, GI s -> gexec s es = Some s' ->
  nth_error (pop s) k = Some a -> exists b, nth_error (pop s') k = Some b /\ (a = b \/ better b a = true).
Proof.
  induction es as [|e es IH]; simpl; intros s s' k a gi H Ha; [inv_opt; eauto|].
  destruct (targets_free s e) eqn:T; [|discriminate]. destruct (step s e) as [s1|] eqn:E; [|discriminate].
  destruct (nth_error (pop s1) k) as [a1|] eqn:E1.
  - destruct (IH s1 s' k a1) as (b & Hb & X); auto. { eapply GI_step; eauto. }
    exists b. split; auto. destruct (slot_step _ _ _ _ _ _ gi E Ha E1) as [->|B1]; auto. destruct X as [<-|B2]; eauto.
  - apply nth_error_None in E1. rewrite (step_len _ _ _ E) in E1. assert (k < length (pop s)) by (apply nth_error_Some; congruence). lia.
Qed.
Lemma GI_gexec : forall es s s', GI s -> gexec s es = Some s' -> GI s'.
Proof.
  induction es as [|e es IH]; simpl; intros s s' gi H; [now inv_opt|].
  destruct (targets_free s e) eqn:T; [|discriminate]. destruct (step s e) as [s1|] eqn:E; [|discriminate].
  eapply IH; [eapply GI_step; eauto|exact H].
Qed.
Theorem C23_slots_never_worse : forall p0 es1 es2 s1 s2 k a,
  gexec (init p0) es1 = Some s1 -> gexec (init p0) (es1 ++ es2) = Some s2 ->
  nth_error (pop s1) k = Some a ->
  exists b, nth_error (pop s2) k = Some b /\ (a = b \/ better b a = true).
Proof.
  intros p0 es1 es2 s1 s2 k a H1 H2 Ha. rewrite gexec_app, H1 in H2.
  eapply slot_exec; eauto. eapply GI_gexec; [apply GI_init|exact H1].
Qed.
(** without the generation structure: any schedule, as long as the population
    is not aborted *)
Lemma prun_mono : forall s e s', step s e = Some s' -> prun s' = true -> prun s = true.
Proof.
  intros s e s' H. assert (RL : forall k (s : st I), prun (release1 k s) = prun s) by (intros; apply release1_misc).
  destruct e as [q|c|c|c|c|c|c| | |n]; simpl in H.
  - destruct (run s); [|discriminate]. simpl in H. destruct (okquad _ q); [|discriminate]. destruct (prun s) eqn:E; auto. inv_opt. simpl. now rewrite E.
  - destruct (nth_error (cs s) c) as [[q p]|]; [|discriminate]. destruct p as [[|]| | | | | | |]; try discriminate.
    repeat (match goal with H : match ?x with _ => _ end = _ |- _ => destruct x end); now inv_opt.
  - destruct (nth_error (cs s) c) as [[q p]|]; [|discriminate]. destruct p as [|[|? ?]|? ? ? ? [|? ?]| | | | |]; try discriminate; inv_opt; now rewrite ?RL.
  - destruct (nth_error (cs s) c) as [[q p]|]; [|discriminate]. destruct p as [| |? ? ? ? [|? ?]| | | | |]; try discriminate. destruct (mk _ _ _ _ _); now inv_opt.
  - destruct (nth_error (cs s) c) as [[q p]|]; [|discriminate]. destruct p; try discriminate.
    repeat (match goal with H : match ?x with _ => _ end = _ |- _ => destruct x end); now inv_opt.
  - destruct (nth_error (cs s) c) as [[q p]|]; [|discriminate]. destruct p; try discriminate. now inv_opt.
  - destruct (nth_error (cs s) c) as [[q p]|]; [|discriminate]. destruct p; try discriminate. inv_opt. now rewrite RL.
  - now inv_opt.
  - inv_opt. discriminate.
  - destruct (nth_error (abq s) n); [|discriminate]. inv_opt. now rewrite RL.
Qed.
Theorem C23_slots_any_schedule : forall p0 es s e s' k a,
  exec (init p0) es = Some s -> prun s' = true -> step s e = Some s' ->
  nth_error (pop s) k = Some a ->
  exists b, nth_error (pop s') k = Some b /\ (a = b \/ better b a = true).
Proof.
  intros p0 es s e s' k a H Pr Hs Ha.
  destruct (nth_error (pop s') k) as [b|] eqn:Hb.
  2:{ apply nth_error_None in Hb. rewrite (step_len _ _ _ Hs) in Hb. assert (k < length (pop s)) by (apply nth_error_Some; congruence). lia. }
  exists b. split; auto.
  destruct (run s) eqn:R.
  - destruct (step_pop _ _ _ _ _ _ _ _ Hs) as [_ [E|(c & q & it & ch & r & He & E & _ & Er & Eb & Ep)]]; [left; congruence|].
    assert (X : nth_error (pop s') k <> nth_error (pop s) k -> better b a = true).
    { intros N. destruct (C21_writes_own_target p0 es s e s' k H R (prun_mono _ _ _ Hs Pr) Hs N) as (c' & q' & it' & ch' & r' & _ & _ & -> & _ & V & _ & B & P').
      rewrite P', upd_same in Hb by (apply nth_error_Some; congruence). congruence. }
    destruct (Nat.eq_dec k (kt q)) as [->|N]; [|left; rewrite Ep, upd_other in Hb; congruence].
    rewrite Ep, upd_same in Hb by (apply nth_error_Some; congruence). injection Hb as <-.
    right. assert (V := C21_writes_own_target).
    assert (si : SI mk ev better p0 s).
    { eapply SI_exec; [|split; eauto using prun_mono|exact H]. apply SI_init. split; reflexivity. }
    assert (TV := target_val mk ev better p0 s c q _ si E Logic.I eq_refl ltac:(now left)).
    assert (O := s_pc _ _ _ _ _ si c _ E). unfold okpc in O; simpl in O. destruct O as (O1 & _). rewrite O1, Ha in TV. injection TV as ->. auto.
  - destruct (frozen mk ev better histcrash xSSE [e] s s' R) as [E _]; [simpl; now rewrite Hs|]. left. congruence.
Qed.

End Generic.
Print Assumptions C20_async_equals_sequential.
Print Assumptions C21_exclusive.
Print Assumptions C21_reads_under_lock.
Print Assumptions C21_writes_own_target.
Print Assumptions C22_progress.
Print Assumptions C22_bounded.
Print Assumptions C22_all_finish.
Print Assumptions C23_slots_never_worse.
Print Assumptions C23_slots_any_schedule.
Print Assumptions C24_frozen_after_shutdown.
Print Assumptions C24_frozen_after_fatal.
Print Assumptions C24_second_shutdown.

(** ** Concrete executions: individuals are their SSEs *)
Definition xmk (c it ib i0 i1 : nat) : mkres nat := if Nat.eqb c 9 then Rejected else Candidate (ib + (i0 - i1)).
Definition xev (c it ch : nat) : option nat := if Nat.eqb ch 0 then None else Some ch.
Definition xhc (c : nat) : bool := false.
Definition xp0 : list nat := [50; 40; 30; 20; 10; 60].
Definition xq0 := mkQuad 0 4 1 2.   (* 10 + (40 - 30) = 20 beats 50 *)
Definition xq1 := mkQuad 1 0 3 4.   (* waits for 0: 20 + (20 - 10) = 30 beats 40 *)
Definition xq2 := mkQuad 2 4 3 5.   (* 10 + 0 = 10 beats 30 *)
(** three overlapping challenges, the third finishing first *)
Definition xes : list event :=
  [ERequest xq0; ERequest xq1; EResume 0; ERelease 0; ERelease 0; ERequest xq2; ERelease 0; EMutate 0;
   EEvalDone 0; ERelT 0; EResume 1; ERelease 1; ERelease 1; ERelease 1; EResume 2; ERelease 2; ERelease 2; ERelease 2; EMutate 2;
   EEvalDone 2; ERelT 2; EMutate 1; EEvalDone 1; ERelT 1].
Definition xrun := exec xmk xev Nat.ltb xhc false (init xp0).
Definition xgrun := gexec xmk xev Nat.ltb xhc false (init xp0).
Example C20_nonvacuous : exists s, xrun xes = Some s /\ run s = true /\ prun s = true /\ all_done s /\
  pop s = [20; 30; 10; 20; 10; 60] /\ requests xes = [xq0; xq1; xq2].
Proof.
  eexists. split; [vm_compute; reflexivity|]. simpl. repeat split.
  intros [|[|[|[|c]]]] x; simpl; try discriminate; intros [= <-]; reflexivity.
Qed.
(** in the middle of it challenge 1 waits for challenge 0, which holds slot 0 *)
Example C21_nonvacuous : exists s, xrun (firstn 8 xes) = Some s /\ run s = true /\ prun s = true /\
  holds s 0 0 /\ holds s 1 1 /\ ~ holds s 1 0.
Proof.
  eexists. split; [vm_compute; reflexivity|]. split; [vm_compute; reflexivity|]. split; [vm_compute; reflexivity|]. split; [|split].
  - eexists _, _. split; [vm_compute; reflexivity|]. reflexivity.
  - eexists _, _. split; [vm_compute; reflexivity|]. simpl. intuition lia.
  - intros (q & p & E & H). simpl in E. injection E as <- <-. simpl in H. intuition lia.
Qed.
Example C21_reads_nonvacuous : exists s s' q it ib i0 i1 l, xrun (firstn 2 xes) = Some s /\
  step xmk xev Nat.ltb xhc false s (EResume 0) = Some s' /\ nth_error (cs s') 0 = Some (mkChal q (PRel it ib i0 i1 l)) /\ it = 50.
Proof. do 8 eexists. split; [vm_compute; reflexivity|]. split; [vm_compute; reflexivity|]. split; vm_compute; reflexivity. Qed.
Example C21_writes_nonvacuous : exists s s', xrun (firstn 8 xes) = Some s /\
  step xmk xev Nat.ltb xhc false s (EEvalDone 0) = Some s' /\ nth_error (pop s') 0 <> nth_error (pop s) 0.
Proof. do 2 eexists. split; [vm_compute; reflexivity|]. split; [vm_compute; reflexivity|]. simpl. congruence. Qed.
(** Exclusiveness is lost once the optimizer shuts down: a challenge resumed
    after that calls release() without arguments, which also releases the locks
    of others (de.py:519-521).  Challenge 0 evaluates with target 0; challenge 1
    (other slots) is resumed after the shutdown and releases slot 0, which
    challenge 2 then gets. *)
Definition xp8 : list nat := [50; 40; 30; 20; 10; 60; 70; 80].
Theorem C21_exclusive_after_shutdown_refuted : exists es s, exec xmk xev Nat.ltb xhc false (init xp8) es = Some s /\
  prun s = true /\ holds s 0 0 /\ holds s 2 0.
Proof.
  exists [ERequest xq0; ERequest (mkQuad 3 5 6 7); ERequest (mkQuad 0 5 6 7); EResume 0; ERelease 0; ERelease 0; ERelease 0; EMutate 0;
          EShutdown; EResume 1; ERelease 1].
  eexists. split; [vm_compute; reflexivity|]. split; [vm_compute; reflexivity|]. split; eexists _, _; (split; [vm_compute; reflexivity|]); simpl; intuition lia.
Qed.

Example C22_nonvacuous : no_crash xmk xhc /\ (exists s, xrun (firstn 8 xes ++ [EPopAbort; EShutdown]) = Some s /\ ~ all_done s /\ length (abq s) = 6) /\
  exists s s', xrun (firstn 6 xes) = Some s /\ forallb internal (skipn 6 xes) = true /\ exec xmk xev Nat.ltb xhc false s (skipn 6 xes) = Some s'.
Proof.
  split; [split; [intros c a b d e; unfold xmk; destruct (c =? 9); discriminate|reflexivity]|]. split.
  - eexists. split; [vm_compute; reflexivity|]. split; [|reflexivity]. intros D. assert (X := D 0 _ eq_refl). discriminate.
  - do 2 eexists. split; [vm_compute; reflexivity|]. split; vm_compute; reflexivity.
Qed.
(** a constraint function that raises leaves the target's lock taken for ever:
    the next challenge of that slot can never go on, shutdown included *)
Theorem C22_crash_refuted : exists (mk : nat -> nat -> nat -> nat -> nat -> mkres nat) es s,
  exec mk xev Nat.ltb xhc false (init xp8) es = Some s /\ ~ all_done s /\
  (forall e, internal e = true -> step mk xev Nat.ltb xhc false s e = None).
Proof.
  exists (fun c _ _ _ _ => if c =? 0 then MkCrash else Rejected),
    [ERequest xq0; ERequest (mkQuad 0 5 6 7); EResume 0; ERelease 0; ERelease 0; ERelease 0; EMutate 0; EShutdown].
  eexists. split; [vm_compute; reflexivity|]. split.
  - intros D. assert (X := D 1 _ eq_refl). discriminate.
  - intros [q|c|c|c|c|c|c| | |n]; try discriminate; intros _; [..|destruct n; reflexivity]; destruct c as [|[|[|c]]]; vm_compute; reflexivity.
Qed.

Example C23_nonvacuous : exists s1 s2, xgrun (firstn 8 xes) = Some s1 /\ xgrun (firstn 8 xes ++ skipn 8 xes) = Some s2 /\
  nth_error (pop s1) 1 = Some 40 /\ nth_error (pop s2) 1 = Some 30.
Proof. do 2 eexists. split; [vm_compute; reflexivity|]. split; [vm_compute; reflexivity|]. split; vm_compute; reflexivity. Qed.
(** the generation structure matters once the population is aborted while the
    optimizer goes on (Reporter.abort does that): locks are then ignored and a
    later, worse challenger may replace a better one *)
Theorem C23_aborted_overlap_refuted : exists es s1 s2 s3, xrun es = Some s1 /\
  step xmk xev Nat.ltb xhc false s1 (EEvalDone 1) = Some s2 /\
  step xmk xev Nat.ltb xhc false s2 (EEvalDone 0) = Some s3 /\
  nth_error (pop s2) 0 = Some 10 /\ nth_error (pop s3) 0 = Some 20.
Proof.
  exists [EPopAbort; ERequest xq0; ERequest (mkQuad 0 4 3 1); EResume 0; EResume 1; ERelease 0; ERelease 0; ERelease 0;
          ERelease 1; ERelease 1; ERelease 1; EMutate 0; EMutate 1].
  do 3 eexists. split; [vm_compute; reflexivity|]. split; [vm_compute; reflexivity|]. split; [vm_compute; reflexivity|]. split; vm_compute; reflexivity.
Qed.

Example C24_nonvacuous : exists s1 s2, xrun (firstn 8 xes) = Some s1 /\ xrun (firstn 8 xes ++ EShutdown :: [EEvalDone 0; ERelT 0]) = Some s2 /\
  nth_error (pop s2) 0 = Some 50 /\ exists s3, xrun xes = Some s3 /\ nth_error (pop s3) 0 = Some 20.
Proof. do 2 eexists. split; [vm_compute; reflexivity|]. split; [vm_compute; reflexivity|]. split; [vm_compute; reflexivity|]. eexists. split; vm_compute; reflexivity. Qed.
Example C24_fatal_nonvacuous : exists s s1, exec xmk xev Nat.ltb xhc false (init [50; 0; 0; 30; 20; 10])
    [ERequest (mkQuad 0 1 2 3); EResume 0; ERelease 0; ERelease 0; ERelease 0; EMutate 0] = Some s /\
  nth_error (cs s) 0 = Some (mkChal (mkQuad 0 1 2 3) (PEval 50 0)) /\ xev 0 50 0 = None /\ step xmk xev Nat.ltb xhc false s (EEvalDone 0) = Some s1.
Proof. do 2 eexists. split; [vm_compute; reflexivity|]. split; [vm_compute; reflexivity|]. split; vm_compute; reflexivity. Qed.

(** ** With actual individuals *)
Section Actual.
Variables (p : pm) (cons : list constr) (CR : f64) (F : nat -> f64) (j : nat -> nat) (u : nat -> nat -> f64).
Variables (func : nat -> f64 -> option (list f64) -> evalres) (t : nat -> f64) (PS : nat -> evpop).
Variables (histcrash : nat -> bool) (xSSE : bool).
Notation mkI := (mk_indiv p cons CR F j u).
Notation evI := (ev_indiv func t PS).
Notation iexec := (exec mkI evI ind_lt histcrash xSSE).
Notation igexec := (gexec mkI evI ind_lt histcrash xSSE).

(** C02, second half: whatever happens, every individual in the population stays
    inside the bounds, and so does every challenger being evaluated *)
Theorem C02_population_stays_in_bounds : forall p0 es s, okpm p -> (forall c, isfin (F c) = true) ->
  (forall i, In i p0 -> inbounds p (ivalues i)) -> iexec (init p0) es = Some s ->
  (forall i, In i (pop s) -> inbounds p (ivalues i)) /\
  (forall c q it ch, nth_error (cs s) c = Some (mkChal q (PEval it ch)) -> inbounds p (ivalues ch)).
Proof.
  intros p0 es s OK FF H0 H.
  assert (X : QI (fun i => inbounds p (ivalues i)) s).
  { eapply QI_exec; [| |split|exact H].
    - intros c a b d e ch Ha Hb Hd He. unfold mk_indiv. destruct (passesConstraints _ _ _) as [[|]|]; try discriminate.
      intros [= <-]. simpl. apply challenger_in; auto.
    - intros c a ch r Hc Hr. now rewrite (ev_values _ _ _ _ _ _ _ Hr).
    - simpl. now apply Forall_forall.
    - constructor. }
  destruct X as [X1 X2]. split.
  - now apply Forall_forall.
  - intros c q it ch E. apply (Forall_nth_error _ _ _ _ X2 E).
Qed.

(** C23 for SSEs: in every slot the SSE never increases; more precisely the slot
    keeps its individual or gets one whose SSE is strictly lower *)
Theorem C23_SSE_never_increases : forall p0 es1 es2 s1 s2 k a,
  igexec (init p0) es1 = Some s1 -> igexec (init p0) (es1 ++ es2) = Some s2 ->
  nth_error (pop s1) k = Some a ->
  exists b, nth_error (pop s2) k = Some b /\
    (a = b \/ isnan (ind_SSE a) = false /\ isnan (ind_SSE b) = false /\ (key (ind_SSE b) < key (ind_SSE a))%R).
Proof.
  intros p0 es1 es2 s1 s2 k a H1 H2 Ha.
  destruct (C23_slots_never_worse mkI evI ind_lt histcrash xSSE (fun x y z => proj1 (proj2 (proj2 (lt_strict_order x y z)))) p0 es1 es2 s1 s2 k a H1 H2 Ha) as (b & Hb & X).
  exists b. split; auto. destruct X as [X|X]; auto. right. apply lt_reals in X. tauto.
Qed.
(** the best SSE never increases: whatever SSE some member had, some member has
    at most that SSE later *)
Theorem C23_best_never_worse : forall p0 es1 es2 s1 s2 a,
  igexec (init p0) es1 = Some s1 -> igexec (init p0) (es1 ++ es2) = Some s2 ->
  In a (pop s1) -> isnan (ind_SSE a) = false ->
  exists b, In b (pop s2) /\ isnan (ind_SSE b) = false /\ (key (ind_SSE b) <= key (ind_SSE a))%R.
Proof.
  intros p0 es1 es2 s1 s2 a H1 H2 Ha N. apply In_nth_error in Ha. destruct Ha as [k Hk].
  destruct (C23_SSE_never_increases p0 es1 es2 s1 s2 k a H1 H2 Hk) as (b & Hb & X).
  exists b. split; [eapply nth_error_In; eauto|]. destruct X as [<-|(_ & X & Y)]; split; auto with real.
Qed.

(** C57: an individual whose SSE is NaN keeps its slot for ever *)
Theorem C57_NaN_immortal : forall p0 es s k a,
  igexec (init p0) es = Some s -> nth_error p0 k = Some a -> isnan (ind_SSE a) = true ->
  nth_error (pop s) k = Some a.
Proof.
  intros p0 es s k a H Ha N.
  destruct (C23_SSE_never_increases p0 [] es (init p0) s k a eq_refl H Ha) as (b & Hb & [->|(X & _)]); [auto|congruence].
Qed.
End Actual.

(** C02 with the F of an actual FManager: for every history of up() and down()
    calls before each challenge *)
Theorem C02_population_in_bounds_with_FManager : forall p cons CR j u func t PS histcrash xSSE Fv Np ad up0 up1 (ops : nat -> list fmop) (uF : nat -> f64) p0 es s,
  okpm p -> good_F Fv -> good_CR_Np CR Np -> good_pow up0 up1 -> (forall c, unit_draw (uF c)) ->
  (forall i, In i p0 -> inbounds p (ivalues i)) ->
  exec (mk_indiv p cons CR (fun c => fm_get (uF c) (fm_run up0 up1 (fm_init Fv CR Np ad) (ops c))) j u) (ev_indiv func t PS) ind_lt histcrash xSSE (init p0) es = Some s ->
  forall i, In i (pop s) -> inbounds p (ivalues i).
Proof.
  intros p cons CR j u func t PS histcrash xSSE Fv Np ad up0 up1 ops uF p0 es s OK GF GC GP UD H0 H.
  eapply C02_population_stays_in_bounds; [..|exact H]; auto.
  intros c. destruct (C17_F_within_original Fv CR Np ad up0 up1 (ops c) (uF c) GF GC GP (UD c)) as (A & B & C & _ & D & _ & E).
  destruct GF as (F1 & F2 & _).
  apply fleb_spec in C, D, E. destruct C as (_ & _ & C). destruct D as (_ & D2 & D). destruct E as (_ & _ & E).
  rewrite key_fzero in C. rewrite (key_fin _ F2) in E.
  apply fin_key; auto. assert (Z := fin_bound (highF Fv)). assert (Z2 := big_pos). 
  Lra.lra.
Qed.
Print Assumptions C02_population_stays_in_bounds.
Print Assumptions C02_population_in_bounds_with_FManager.
Print Assumptions C23_SSE_never_increases.
Print Assumptions C23_best_never_worse.
Print Assumptions C57_NaN_immortal.

(** five individuals, one with a NaN SSE (slot 4); challenge 0 replaces slot 0
    (SSE 7 by 2), challenge 1 fails to replace slot 4 *)
Definition ex_ind (a b sse : Z) : indiv := mkIndiv [fofZ a; fofZ b] (Some (fofZ sse)) None.
Definition ex_p0 : list indiv :=
  [ex_ind 4 1 7; ex_ind (-5) 9 6; ex_ind 0 0 5; ex_ind 1 1 4; mkIndiv [fone; fone] (Some fnan) None].
Definition ex_es : list event :=
  [ERequest (mkQuad 0 1 2 3); EResume 0; ERelease 0; ERequest (mkQuad 4 1 2 3); ERelease 0; ERelease 0; EMutate 0; EEvalDone 0;
   ERelT 0; EResume 1; ERelease 1; ERelease 1; ERelease 1; EMutate 1; EEvalDone 1; EHistDone 1; ERelT 1].
Definition ex_gexec := gexec (mk_indiv ex_pm [] (flit 1 (-1)) (fun _ => flit 1 (-1)) (fun _ => 0) (fun _ _ => flit 1 (-2)))
  (ev_indiv (fun _ _ _ => EvSSE (Some (fofZ 2))) (fun _ => fone) (fun _ => mkEvpop (Some true) 5)) ind_lt (fun _ => false) false (init ex_p0).
Lemma ex_p0_in : forall i, In i ex_p0 -> inbounds ex_pm (ivalues i).
Proof.
  intros i H. simpl in H. destruct H as [<-|[<-|[<-|[<-|[<-|[]]]]]]; (apply inbounds_ex; split; vm_compute; reflexivity).
Qed.
Example C02_C23_C57_nonvacuous : okpm ex_pm /\ (forall i, In i ex_p0 -> inbounds ex_pm (ivalues i)) /\
  match ex_gexec ex_es with
  | Some s => forallb (fun ab => feqb (ind_SSE (fst ab)) (snd ab)) (combine (firstn 4 (pop s)) [fofZ 2; fofZ 6; fofZ 5; fofZ 4])
              && match nth_error (pop s) 4 with Some a => isnan (ind_SSE a) | None => false end
  | None => false
  end = true.
Proof. split; [exact ex_pm_ok|]. split; [exact ex_p0_in|]. vm_compute. reflexivity. Qed.
