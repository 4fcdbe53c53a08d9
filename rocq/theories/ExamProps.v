(** * Properties C73-C76: the example programs. *)
From Coq Require Import Bool Arith ZArith Ascii String List Permutation Lia Reals Lra.
From Flocq Require Import Core BinarySingleNaN.
From Verif Require Import Flt FltMore Py ParamModel ExamModel.
Import ListNotations.
Local Open Scope nat_scope.

(** ** C73 *)
Definition commands (evs : list eev) : list nat :=
  flat_map (fun e => match e with ECmd c => [c] | _ => [] end) evs.
Definition start : ep := ep_step ep_init EConnected.
(** whenever a command is given, at most one other one is unanswered *)
Definition at_most_two (evs : list eev) : Prop :=
  forall before c after, evs = before ++ ECmd c :: after ->
  length (commands before) <= length (eres (ep_run start before)) + 1.

Definition shape (s : ep) (out : list nat) : Prop :=
  erun s = None /\
  match out with
  | [] => elocked s = false /\ ewait s = [] /\ epend s = []
  | [c] => elocked s = true /\ ewait s = [(c, true)] /\ epend s = [c]
  | [c; d] => elocked s = true /\ ewait s = [(c, true); (d, false)] /\ epend s = [c]
  | _ => False
  end.
Lemma ep_run_app : forall a b s, ep_run s (a ++ b) = ep_run (ep_run s a) b.
Proof. intros. unfold ep_run. apply fold_left_app. Qed.
Lemma ep_run_snoc : forall a e s, ep_run s (a ++ [e]) = ep_step (ep_run s a) e.
Proof. intros. now rewrite ep_run_app. Qed.
Lemma commands_app : forall a b, commands (a ++ b) = commands a ++ commands b.
Proof. intros. unfold commands. apply flat_map_app. Qed.

Definition dup (c : nat) : nat * nat := (c, c).
Lemma two_inv : forall evs, at_most_two evs ->
  (forall e, In e evs -> e <> EConnected) ->
  exists done out, commands evs = done ++ out /\ eres (ep_run start evs) = map dup done /\ shape (ep_run start evs) out.
Proof.
  induction evs as [| e evs IH] using rev_ind; intros H HC.
  - exists [], []. repeat split.
  - destruct IH as (done & out & E & R & S).
    { intros b c a Ea. apply (H b c (a ++ [e])). now rewrite Ea, <- app_assoc. }
    { intros e' He'. apply HC. apply in_or_app. now left. }
    assert (HH : forall c, e = ECmd c -> length (commands evs) <= length (eres (ep_run start evs)) + 1) by (intros c ->; exact (H evs c [] eq_refl)).
    rewrite ep_run_snoc, commands_app. remember (ep_run start evs) as s eqn:Es. clear Es.
    assert (HE : e <> EConnected) by (apply HC; apply in_or_app; right; now left).
    destruct e as [| c | |]; [easy | | |].
    + specialize (HH c eq_refl). rewrite E, R, app_length, map_length in HH.
      destruct S as [S0 S].
      destruct out as [| x [| y out]]; [| | cbn in HH; lia].
      * destruct S as (S1 & S2 & S3). exists done, [c]. cbn. rewrite S1. cbn. rewrite S2, S3, E, app_nil_r.
        repeat split; auto.
      * destruct S as (S1 & S2 & S3). exists done, [x; c]. cbn. rewrite S1. cbn. rewrite S2, S3, E, <- app_assoc.
        repeat split; auto.
    + destruct S as [S0 S]. cbn [commands flat_map]. rewrite app_nil_r.
      destruct out as [| x [| y [| z out]]]; [| | | easy].
      * destruct S as (S1 & S2 & S3). exists done, []. cbn. rewrite S3. repeat split; auto.
      * destruct S as (S1 & S2 & S3). exists (done ++ [x]), [].
        unfold ep_step, do_release. rewrite S3, S1, S2. cbn. rewrite E, R, app_nil_r, map_app. repeat split; auto.
      * destruct S as (S1 & S2 & S3). exists (done ++ [x]), [y].
        unfold ep_step, do_release. rewrite S3, S1, S2. cbn. rewrite E, R, <- app_assoc, map_app. repeat split; auto.
    + destruct S as [S0 S]. exists done, out. cbn. rewrite S0, app_nil_r. repeat split; auto.
Qed.

(** with at most two commands unanswered at any time, each command gets its own
    answer, in the order given *)
Theorem C73_two : forall evs, at_most_two evs -> (forall e, In e evs -> e <> EConnected) ->
  exists n, eres (ep_run start evs) = map (fun c => (c, c)) (firstn n (commands evs)).
Proof.
  intros evs H HC. destruct (two_inv evs H HC) as (done & out & E & R & _).
  exists (length done). rewrite E, R, firstn_app, Nat.sub_diag, firstn_all, app_nil_r. reflexivity.
Qed.
(** and as long as one is unanswered, the executable has something to answer, and
    its answer completes the next command *)
Theorem C73_progress : forall evs, at_most_two evs -> (forall e, In e evs -> e <> EConnected) ->
  length (eres (ep_run start evs)) < length (commands evs) ->
  length (eres (ep_run start (evs ++ [EReply]))) = S (length (eres (ep_run start evs))).
Proof.
  intros evs H HC HL. destruct (two_inv evs H HC) as (done & out & E & R & S0 & S).
  rewrite ep_run_snoc. remember (ep_run start evs) as s eqn:Es. clear Es. rewrite R, E, app_length, map_length in HL.
  destruct out as [| x [| y [| z out]]]; [cbn in HL; lia | | | easy];
    destruct S as (S1 & S2 & S3); unfold ep_step, do_release; rewrite S3, S1, S2; cbn; rewrite R, app_length, !map_length; cbn; lia.
Qed.
Example C73_two_case : at_most_two [ECmd 1; ECmd 2; EReply; ECmd 3; EReply; EReply].
Proof.
  intros b c a E.
  do 6 (destruct b as [| ? b]; [injection E as <- <- || discriminate E; cbn; lia | injection E as <- E]).
  destruct b; discriminate E.
Qed.
Example C73_two_run : eres (ep_run start [ECmd 1; ECmd 2; EReply; ECmd 3; EReply; EReply]) = [(1, 1); (2, 2); (3, 3)].
Proof. reflexivity. Qed.

(** with more commands at once, all but the first get the answer to the last *)
Definition first (c : nat) : nat * bool := (c, false).
Definition second (c : nat) : nat * bool := (c, true).
Lemma release_seconds : forall bs, ep_release (map second bs) = (false, [], [], rev bs).
Proof. induction bs as [| b bs IH]; [reflexivity|]. change (map second (b :: bs)) with ((b, true) :: map second bs). cbn [ep_release rev]. now rewrite IH. Qed.
Lemma ep_run_cons : forall s e l, ep_run s (e :: l) = ep_run (ep_step s e) l.
Proof. reflexivity. Qed.
Lemma reply_first : forall s d w x, elocked s = true -> ewait s = (d, false) :: w -> epend s = [x] ->
  ep_step s EReply = mkEp true (w ++ [(d, true)]) [d] (Some x) (eres s) (erun s) (ekilled s).
Proof. intros s d w x L W P. unfold ep_step, do_release. rewrite P, L. cbn. rewrite W. cbn. now rewrite app_nil_r. Qed.
Lemma last_default : forall (l : list nat) a b x, last (a :: l) b = last (a :: l) x.
Proof. induction l as [| c l IH]; intros; [reflexivity|]. change (last (c :: l) b = last (c :: l) x). apply IH. Qed.
Lemma drain : forall ds bs x s, elocked s = true -> ewait s = map first ds ++ map second (bs ++ [x]) -> epend s = [x] ->
  forall s', s' = ep_run s (repeat EReply (S (length ds))) ->
  eres s' = eres s ++ map (fun c => (c, last ds x)) (rev (bs ++ x :: ds)) /\ elocked s' = false /\ epend s' = [].
Proof.
  induction ds as [| d ds IH]; intros bs x s L W P s' ->.
  - cbn [length repeat]. rewrite ep_run_cons. unfold ep_step, do_release. rewrite P, L. cbn [ewait].
    rewrite W. cbn [map app]. rewrite release_seconds. cbn. repeat split.
  - change (repeat EReply (S (length (d :: ds)))) with (EReply :: repeat EReply (S (length ds))).
    rewrite ep_run_cons, (reply_first s d (map first ds ++ map second (bs ++ [x])) x L W P).
    match goal with |- context [ep_run ?s1 _] => destruct (IH (bs ++ [x]) d s1) with (s' := ep_run s1 (repeat EReply (S (length ds)))) as (A & B & C) end.
    + reflexivity.
    + cbn [ewait]. rewrite <- app_assoc. f_equal. now rewrite (map_app second (bs ++ [x])).
    + reflexivity.
    + reflexivity.
    + rewrite A. split; [| split; assumption]. cbn [eres]. rewrite <- app_assoc. cbn [app]. f_equal. f_equal.
      replace (last (d :: ds) x) with (last ds d); [reflexivity|].
      destruct ds as [| e ds]; [reflexivity|]. change (last (e :: ds) d = last (e :: ds) x). apply last_default.
Qed.
Lemma issue : forall cs s, elocked s = true ->
  ep_run s (map ECmd cs) = mkEp true (ewait s ++ map first cs) (epend s) (eresp s) (eres s) (erun s) (ekilled s).
Proof.
  induction cs as [| c cs IH]; intros s L; cbn [map ep_run fold_left].
  - rewrite app_nil_r. destruct s; cbn in *. now rewrite L.
  - change (fold_left ep_step (map ECmd cs) (ep_step s (ECmd c))) with (ep_run (ep_step s (ECmd c)) (map ECmd cs)).
    cbn [ep_step]. rewrite L, IH by reflexivity. cbn. now rewrite <- app_assoc.
Qed.
Theorem C73_all_last : forall c d cs,
  eres (ep_run start (map ECmd (c :: d :: cs) ++ repeat EReply (length (c :: d :: cs)))) =
  (c, c) :: map (fun x => (x, last cs d)) (rev (d :: cs)).
Proof.
  intros. rewrite ep_run_app.
  assert (E : ep_run start (map ECmd (c :: d :: cs)) =
     mkEp true (second c :: map first (d :: cs)) [c] None [] None false).
  { change (map ECmd (c :: d :: cs)) with (ECmd c :: map ECmd (d :: cs)). rewrite ep_run_cons, issue; reflexivity. }
  rewrite E. change (repeat EReply (length (c :: d :: cs))) with (EReply :: repeat EReply (S (length cs))).
  rewrite ep_run_cons. cbn - [ep_run rev repeat last].
  destruct (drain cs [] d (mkEp true (map first cs ++ [(d, true)]) [d] (Some c) [(c, c)] None false) eq_refl eq_refl eq_refl _ eq_refl) as (A & _).
  rewrite A. reflexivity.
Qed.
Theorem C73_own_refuted : ~ forall cs, forall x y,
  In (x, y) (eres (ep_run start (map ECmd cs ++ repeat EReply (length cs)))) -> x = y.
Proof. intros H. specialize (H [1; 2; 3] 2 3). cbn in H. assert (2 = 3) by (apply H; auto). discriminate. Qed.
(** two commands given before the connection was made get mixed up as well *)
Theorem C73_early_refuted : ~ forall c d x y,
  In (x, y) (eres (ep_run ep_init [ECmd c; ECmd d; EConnected; EReply; EReply])) -> x = y.
Proof. intros H. specialize (H 1 2 1 2). cbn in H. assert (1 = 2) by (apply H; auto). discriminate. Qed.
(** shutting down never kills the executable *)
Theorem C73_shutdown_refuted : forall evs, ekilled (ep_run ep_init (evs ++ [EShutdown])) = false.
Proof.
  intros evs. assert (G : forall evs s, erun s = None -> ekilled s = false ->
    erun (ep_run s evs) = None /\ ekilled (ep_run s evs) = false).
  { clear. induction evs as [| e evs IH]; intros s A B; [split; assumption|]. cbn [ep_run fold_left]. unfold ep_run in IH.
    assert (D1 : forall s, erun (do_release s) = erun s).
    { intros s0. unfold do_release. destruct (ep_release (ewait s0)) as [[[? ?] ?] ?]. reflexivity. }
    assert (D2 : forall s, ekilled (do_release s) = ekilled s).
    { intros s0. unfold do_release. destruct (ep_release (ewait s0)) as [[[? ?] ?] ?]. reflexivity. }
    apply IH; destruct e; cbn [ep_step]; try (rewrite A; assumption); destruct (elocked s); rewrite ?D1, ?D2; try assumption;
      destruct (epend s); rewrite ?D1, ?D2; assumption. }
  apply (G (evs ++ [EShutdown]) ep_init); reflexivity.
Qed.

(** the calls go to the runners in turn, whether free or not *)
Theorem C73_in_turn : forall queue calls k, k < calls -> queue <> [] ->
  nth_error (assign queue calls) k = nth_error queue (k mod length queue).
Proof.
  intros queue calls. revert queue. induction calls as [| calls IH]; intros queue k HK HQ; [lia|].
  destruct queue as [| r q]; [easy|]. cbn [assign]. destruct k as [| k].
  - rewrite Nat.mod_0_l by (cbn; lia). reflexivity.
  - cbn [nth_error]. rewrite IH; [| lia | now destruct q]. rewrite app_length. cbn [length].
    replace (length q + 1) with (S (length q)) by lia.
    set (n := S (length q)).
    assert (HN : n <> 0) by (unfold n; lia).
    pose proof (Nat.mod_upper_bound k n HN) as HB.
    destruct (Nat.eq_dec (k mod n) (length q)) as [E | E].
    + rewrite E, nth_error_app2, Nat.sub_diag by lia.
      replace (S k mod n) with 0; [reflexivity|].
      replace (S k) with (k + 1) by lia. rewrite Nat.add_mod, E by lia.
      destruct (Nat.eq_dec n 1) as [-> |]; [now rewrite !Nat.mod_1_r|].
      rewrite (Nat.mod_small 1) by lia. replace (length q + 1) with n by (unfold n; lia). now rewrite Nat.mod_same.
    + replace (S k mod n) with (S (k mod n)).
      * rewrite nth_error_app1 by (unfold n in *; lia). reflexivity.
      * replace (S k) with (k + 1) by lia. rewrite Nat.add_mod by lia.
        rewrite (Nat.mod_small 1) by (unfold n in *; lia). rewrite (Nat.mod_small (k mod n + 1)) by (unfold n in *; lia). lia.
Qed.
Example C73_in_turn_case : assign [7; 8] 5 = [7; 8; 7; 8; 7]. Proof. reflexivity. Qed.

(** ** C74 *)
(** the parameters of a thermistor are the four common ones and its own four *)
Theorem C74_args : forall (V : Type) (values : list V) k, length values = 28 -> 1 <= k <= 6 ->
  values2args values k = Ok (firstn 4 values ++ firstn 4 (skipn (4 * k) values)).
Proof.
  intros V values k HL HK.
  do 28 (destruct values as [| ? values]; [discriminate HL|]). destruct values; [| discriminate HL].
  do 7 (destruct k as [| k]; [first [lia | reflexivity]|]). lia.
Qed.
(** with fewer values than that, IndexError; the values of the later thermistors may be missing *)
Theorem C74_short : forall (V : Type) (values : list V) k, 1 <= k <= 6 ->
  (length values < 4 * k + 4 -> values2args values k = Raise IndexError) /\
  (4 * k + 4 <= length values -> values2args values k = Ok (firstn 4 values ++ firstn 4 (skipn (4 * k) values))).
Proof.
  intros V values k HK. destruct k as [|k]; [lia|].
  do 6 (destruct k as [|k];
    [split; intros HL; [do 28 (destruct values as [|? values]; [first [reflexivity|exfalso; cbn [length] in HL; lia]|]); exfalso; cbn [length] in HL; lia
                       |do 28 (destruct values as [|? values]; [try reflexivity; cbn [length] in HL; lia|]); reflexivity]|]). lia.
Qed.
Example C74_short_case : values2args (seq 0 11) 2 = Raise IndexError /\ values2args (seq 0 12) 2 = Ok [0; 1; 2; 3; 8; 9; 10; 11]. Proof. split; reflexivity. Qed.
(** there are 28 parameters of different names; the four of each kind belong together *)
Theorem C74_names : NoDup th_names /\ length th_names = 28 /\
  th_names = ["A"; "B"; "C"; "D"; "a1"; "b1"; "c1"; "d1"; "a2"; "b2"; "c2"; "d2"; "a3"; "b3"; "c3"; "d3";
              "a4"; "b4"; "c4"; "d4"; "a5"; "b5"; "c5"; "d5"; "a6"; "b6"; "c6"; "d6"]%string.
Proof.
  split; [| split; reflexivity].
  - assert (H : (fix nd l := match l with [] => true | x :: r => negb (isin x r) && nd r end) th_names = true) by (vm_compute; reflexivity).
    revert H. generalize th_names. induction l as [| x r IH]; intros H; constructor; apply andb_prop in H; destruct H as [H1 H2]; [| auto].
    intros HI. apply Bool.negb_true_iff in H1. unfold isin in H1. rewrite <- Bool.not_true_iff_false in H1. apply H1.
    apply existsb_exists. exists x. split; [assumption | apply String.eqb_refl].
Qed.
(** the drift of a kind of parameter is taken over that parameter of each thermistor *)
Theorem C74_drift : forall j, j < 4 ->
  drift_indices (nth j ["a"; "b"; "c"; "d"]%string EmptyString) = map (fun k => 4 * k + j) (seq 1 6).
Proof. intros j HJ. do 4 (destruct j as [| j]; [reflexivity|]). lia. Qed.
Example C74_args_case : values2args (seq 0 28) 2 = Ok [0; 1; 2; 3; 8; 9; 10; 11]. Proof. reflexivity. Qed.

(** ** C75 *)
Local Open Scope R_scope.
#[local] Arguments fadd : simpl never.
#[local] Arguments fmul : simpl never.
#[local] Arguments fdiv : simpl never.
#[local] Arguments fofZ : simpl never.
Definition nonneg (x : f64) : Prop := fleb fzero x = true.
(** the result without a threshold *)
Definition full_result (parts drifts : list f64) : f64 :=
  fold_left (fun sse d => fmul sse (fadd fone (fmul (fdiv (fofZ 1) (fofZ 10)) d))) drifts (fold_left fadd parts fzero).

Lemma add_grows : forall s p, nonneg s -> nonneg p -> fleb s (fadd s p) = true /\ nonneg (fadd s p).
Proof.
  intros s p Hs Hp. assert (G : fleb s (fadd s p) = true).
  { unfold nonneg in *. rewrite fleb_spec in Hs, Hp. rewrite key_fzero in *. destruct Hs as (_ & N1 & K1), Hp as (_ & N2 & K2).
    pose proof big_pos.
    destruct (isfin_cases s N1) as [F1 | [-> | ->]]; [| | cbn in K1; lra].
    - destruct (isfin_cases p N2) as [F2 | [-> | ->]]; [| | cbn in K2; lra].
      + destruct (fadd_key s p F1 F2) as [N K]. apply fleb_spec. repeat split; auto. rewrite K, key_fin, <- (crnd_B2R s) by assumption.
        apply crnd_mono. rewrite (key_fin p F2) in K2. rewrite crnd_B2R. lra.
      + destruct s; try discriminate F1; apply fleb_spec; repeat split; apply key_bound.
    - destruct p as [sp | sp | | sp m e b]; [vm_compute; reflexivity | | discriminate N2 | vm_compute; reflexivity].
      destruct sp; [cbn in K2; lra | vm_compute; reflexivity]. }
  split; [exact G|]. exact (fleb_trans _ _ _ Hs G).
Qed.
Lemma penalty_key : isfin penalty = true /\ 0 <= B2R penalty <= / 8.
Proof.
  assert (F : isfin penalty = true) by (vm_compute; reflexivity). split; [exact F|].
  rewrite <- (key_fin _ F).
  assert (A : fleb fzero penalty = true) by (vm_compute; reflexivity).
  assert (B : fleb penalty (flit 1 (-3)) = true) by (vm_compute; reflexivity).
  apply fleb_spec in A. apply fleb_spec in B. rewrite key_fzero in A. destruct A as (_ & _ & A), B as (_ & _ & B).
  split; [exact A|]. destruct (flit_val 1 (-3)) as [C D]; [reflexivity | lia |]. rewrite (key_fin _ C), D in B. cbn in B. lra.
Qed.
Lemma factor_key : forall d, nonneg d -> isfin d = true -> isfin (fadd fone (fmul penalty d)) = true /\ 1 <= B2R (fadd fone (fmul penalty d)).
Proof.
  intros d Hd Fd. destruct penalty_key as [FP KP]. unfold nonneg in Hd. apply fleb_spec in Hd. rewrite key_fzero, (key_fin d Fd) in Hd.
  destruct Hd as (_ & _ & Hd). pose proof (fin_bound d) as BD.
  destruct (fmul_key penalty d FP Fd) as [N K].
  assert (P0 : 0 <= B2R penalty * B2R d) by (apply Rmult_le_pos; lra).
  assert (E21 : bpow radix2 1021 = big / 8).
  { unfold big. change 1024%Z with (1021 + 3)%Z. rewrite (bpow_plus radix2 1021 3). replace (bpow radix2 3) with 8 by (cbn; lra). field. }
  assert (E22 : bpow radix2 1022 = big / 4).
  { unfold big. change 1024%Z with (1022 + 2)%Z. rewrite (bpow_plus radix2 1022 2). replace (bpow radix2 2) with 4 by (cbn; lra). field. }
  assert (P1 : B2R penalty * B2R d <= bpow radix2 1021).
  { rewrite E21. apply Rle_trans with (/ 8 * B2R d); [apply Rmult_le_compat_r; lra | lra]. }
  assert (K0 : 0 <= key (fmul penalty d)) by (rewrite K; apply crnd_ge0; assumption).
  assert (K1 : key (fmul penalty d) <= bpow radix2 1021) by (rewrite K, <- (crnd_bpow 1021) by lia; now apply crnd_mono).
  pose proof big_pos as BP.
  assert (F2 : isfin (fmul penalty d) = true) by (apply fin_key; [assumption | lra]).
  assert (F1 : isfin fone = true) by (vm_compute; reflexivity).
  destruct (fadd_key fone (fmul penalty d) F1 F2) as [N3 K3].
  rewrite (key_fin _ F2) in K0, K1.
  assert (O : B2R fone = 1) by (rewrite <- (key_fin _ F1); apply key_fone). rewrite O in K3.
  assert (L1 : 1 <= key (fadd fone (fmul penalty d))) by (rewrite K3, <- crnd_1; apply crnd_mono; rewrite crnd_1; lra).
  assert (L2 : key (fadd fone (fmul penalty d)) <= bpow radix2 1022).
  { rewrite K3, <- (crnd_bpow 1022) by lia. apply crnd_mono.
    assert (1 <= bpow radix2 1021) by (change 1 with (bpow radix2 0); apply bpow_le; lia). lra. }
  assert (F3 : isfin (fadd fone (fmul penalty d)) = true) by (apply fin_key; [assumption | lra]).
  split; [exact F3|]. now rewrite (key_fin _ F3) in L1.
Qed.
Lemma mul_grows : forall s d, nonneg s -> nonneg d -> isfin d = true ->
  fleb s (fmul s (fadd fone (fmul penalty d))) = true /\ nonneg (fmul s (fadd fone (fmul penalty d))).
Proof.
  intros s d Hs Hd Fd. destruct (factor_key d Hd Fd) as [FG KG]. set (g := fadd fone (fmul penalty d)) in *. clearbody g.
  assert (G : fleb s (fmul s g) = true).
  { unfold nonneg in Hs. apply fleb_spec in Hs. rewrite key_fzero in Hs. destruct Hs as (_ & N1 & K1). pose proof big_pos.
    destruct (isfin_cases s N1) as [F1 | [-> | ->]]; [| | cbn in K1; lra].
    - destruct (fmul_key s g F1 FG) as [N K]. apply fleb_spec. repeat split; auto. rewrite K, (key_fin _ F1), <- (crnd_B2R s).
      apply crnd_mono. rewrite crnd_B2R. rewrite (key_fin _ F1) in K1. rewrite <- (Rmult_1_r (B2R s)) at 1. now apply Rmult_le_compat_l.
    - destruct g as [sg | sg | | sg m e b]; try discriminate FG; [cbn in KG; lra|].
      destruct sg; [| vm_compute; reflexivity]. exfalso.
      assert (B2R (B754_finite true m e b : f64) < 0); [| lra]. cbn. unfold Defs.F2R. cbn. apply Ropp_lt_cancel. rewrite Ropp_0.
      rewrite Ropp_mult_distr_l. apply Rmult_lt_0_compat; [| apply bpow_gt_0].
      change (IZR (Z.neg m)) with (IZR (Z.opp (Z.pos m))). rewrite opp_IZR, Ropp_involutive. apply IZR_lt. reflexivity. }
  split; [exact G|]. exact (fleb_trans _ _ _ Hs G).
Qed.
Definition dstep (sse d : f64) : f64 := fmul sse (fadd fone (fmul penalty d)).
Lemma adds_grow : forall parts s, nonneg s -> Forall nonneg parts ->
  fleb s (fold_left fadd parts s) = true /\ nonneg (fold_left fadd parts s).
Proof.
  induction parts as [| p parts IH]; intros s Hs HP.
  - split; [apply fleb_refl; exact (proj2 (fleb_nan _ _ Hs)) | exact Hs].
  - inversion HP; subst. destruct (add_grows s p Hs) as [A B]; [assumption|].
    destruct (IH (fadd s p) B) as [C D]; [assumption|]. split; [exact (fleb_trans _ _ _ A C) | exact D].
Qed.
Definition drift_ok (d : f64) : Prop := nonneg d /\ isfin d = true.
Lemma muls_grow : forall drifts s, nonneg s -> Forall drift_ok drifts ->
  fleb s (fold_left dstep drifts s) = true /\ nonneg (fold_left dstep drifts s).
Proof.
  induction drifts as [| p parts IH]; intros s Hs HP.
  - split; [apply fleb_refl; exact (proj2 (fleb_nan _ _ Hs)) | exact Hs].
  - inversion HP as [| ? ? HD HR]; subst. destruct HD as [HD HF]. destruct (mul_grows s p Hs HD HF) as [A B].
    destruct (IH (dstep s p) B HR) as [C D]. split; [exact (fleb_trans _ _ _ A C) | exact D].
Qed.
Lemma sum_spec : forall parts x s, nonneg s -> Forall nonneg parts ->
  forall r stop, th_sum x s parts = (r, stop) ->
  (stop = false /\ r = fold_left fadd parts s) \/
  (stop = true /\ nonneg r /\ exceeds x r = true /\ fleb r (fold_left fadd parts s) = true).
Proof.
  induction parts as [| p parts IH]; intros x s Hs HP r stop E.
  - injection E as <- <-. now left.
  - inversion HP; subst. cbn [th_sum] in E. cbn [fold_left]. destruct (add_grows s p Hs) as [A B]; [assumption|].
    destruct (exceeds x (fadd s p)) eqn:X.
    + injection E as <- <-. right. repeat split; auto. now apply adds_grow.
    + now apply IH.
Qed.
Lemma drift_spec : forall drifts x s, nonneg s -> Forall drift_ok drifts ->
  th_drift x s drifts = fold_left dstep drifts s \/
  (nonneg (th_drift x s drifts) /\ exceeds x (th_drift x s drifts) = true /\ fleb (th_drift x s drifts) (fold_left dstep drifts s) = true).
Proof.
  induction drifts as [| d drifts IH]; intros x s Hs HD; [now left|].
  inversion HD as [| ? ? H1 H2]; subst. destruct H1 as [H1 HF]. destruct (mul_grows s d Hs H1 HF) as [A B].
  cbn [th_drift fold_left]. fold (dstep s d). fold (dstep s d) in B. destruct (exceeds x (dstep s d)) eqn:X.
  - right. repeat split; auto. now apply muls_grow.
  - now apply IH.
Qed.
Lemma eval_spec : forall x parts drifts, Forall nonneg parts -> Forall drift_ok drifts ->
  th_eval x parts drifts = full_result parts drifts \/
  (exceeds x (th_eval x parts drifts) = true /\ fleb (th_eval x parts drifts) (full_result parts drifts) = true).
Proof.
  intros x parts drifts HP HD. unfold th_eval, full_result.
  change (fun sse d : f64 => fmul sse (fadd fone (fmul (fdiv (fofZ 1) (fofZ 10)) d))) with dstep.
  assert (Z : nonneg fzero) by (vm_compute; reflexivity).
  destruct (th_sum x fzero parts) as [r stop] eqn:E. destruct (adds_grow parts fzero Z HP) as [_ A].
  destruct (sum_spec parts x fzero Z HP r stop E) as [[-> ->] | (-> & N & X & L)].
  - destruct (drift_spec drifts x (fold_left fadd parts fzero) A HD) as [-> | (B & C & D)]; [now left | right; auto].
  - right. split; [exact X|]. eapply fleb_trans; [exact L|]. now apply muls_grow.
Qed.
Lemma full_nonneg : forall parts drifts, Forall nonneg parts -> Forall drift_ok drifts -> isnan (full_result parts drifts) = false.
Proof.
  intros parts drifts HP HD. unfold full_result.
  change (fun sse d : f64 => fmul sse (fadd fone (fmul (fdiv (fofZ 1) (fofZ 10)) d))) with dstep.
  assert (Z : nonneg fzero) by (vm_compute; reflexivity). destruct (adds_grow parts fzero Z HP) as [_ A].
  destruct (muls_grow drifts _ A HD) as [_ B]. exact (proj2 (fleb_nan _ _ B)).
Qed.

(** stopping early never changes whether the threshold is exceeded *)
Theorem C75_same_verdict : forall x parts drifts,
  Forall (fun p => fleb fzero p = true) parts -> Forall (fun d => fleb fzero d = true /\ isfin d = true) drifts ->
  fltb x (th_eval (Some x) parts drifts) = fltb x (full_result parts drifts).
Proof.
  intros x parts drifts HP HD. destruct (eval_spec (Some x) parts drifts HP HD) as [-> | [X L]]; [reflexivity|].
  cbn in X. apply andb_prop in X. destruct X as [_ X]. rewrite X. symmetry. exact (fltb_fleb_trans _ _ _ X L).
Qed.
(** the result is the full one unless that exceeds the threshold; it is never more *)
Theorem C75_exact_below : forall x parts drifts,
  Forall (fun p => fleb fzero p = true) parts -> Forall (fun d => fleb fzero d = true /\ isfin d = true) drifts ->
  fltb x (full_result parts drifts) = false ->
  th_eval (Some x) parts drifts = full_result parts drifts.
Proof.
  intros x parts drifts HP HD F. destruct (eval_spec (Some x) parts drifts HP HD) as [E | [X L]]; [exact E|].
  cbn in X. apply andb_prop in X. destruct X as [_ X]. rewrite (fltb_fleb_trans _ _ _ X L) in F. discriminate F.
Qed.
Theorem C75_never_more : forall x parts drifts,
  Forall (fun p => fleb fzero p = true) parts -> Forall (fun d => fleb fzero d = true /\ isfin d = true) drifts ->
  fleb (th_eval x parts drifts) (full_result parts drifts) = true.
Proof.
  intros x parts drifts HP HD. destruct (eval_spec x parts drifts HP HD) as [-> | [_ L]]; [| exact L].
  apply fleb_refl. now apply full_nonneg.
Qed.
(** no threshold, or one of zero, means the full result: a threshold of zero is as none *)
Lemma sum_never : forall x parts s, (forall s, exceeds x s = false) -> th_sum x s parts = (fold_left fadd parts s, false).
Proof. induction parts as [| p parts IH]; intros s H; [reflexivity|]. cbn. rewrite H. now apply IH. Qed.
Lemma drift_never : forall x drifts s, (forall s, exceeds x s = false) -> th_drift x s drifts = fold_left dstep drifts s.
Proof. induction drifts as [| p parts IH]; intros s H; [reflexivity|]. cbn. rewrite H. now apply IH. Qed.
Theorem C75_no_threshold : forall x parts drifts,
  (x = None \/ exists z, x = Some z /\ feqb z fzero = true) ->
  th_eval x parts drifts = full_result parts drifts.
Proof.
  intros x parts drifts H. assert (G : forall s, exceeds x s = false).
  { intros s. destruct H as [-> | (z & -> & Z)]; [reflexivity|]. cbn. now rewrite Z. }
  unfold th_eval. rewrite sum_never by assumption. now rewrite drift_never by assumption.
Qed.
Theorem C75_zero_refuted : ~ forall x parts drifts, Forall (fun p => fleb fzero p = true) parts ->
  fltb x (fold_left fadd (firstn 1 parts) fzero) = true -> drifts = [] ->
  th_eval (Some x) parts drifts = fold_left fadd (firstn 1 parts) fzero.
Proof.
  intros H. specialize (H fzero [fone; fone] []).
  assert (E : th_eval (Some fzero) [fone; fone] [] = fold_left fadd [fone] fzero).
  { apply H; [repeat constructor | vm_compute; reflexivity | reflexivity]. }
  apply (f_equal ftrunc) in E. vm_compute in E. discriminate E.
Qed.
Example C75_case : ftrunc (th_eval (Some (fofZ 3)) [fofZ 2; fofZ 2; fofZ 2] [fofZ 10]) = 4%Z /\
  ftrunc (full_result [fofZ 2; fofZ 2; fofZ 2] [fofZ 10]) = 12%Z /\
  ftrunc (th_eval (Some (fofZ 20)) [fofZ 2; fofZ 2; fofZ 2] [fofZ 10]) = 12%Z.
Proof. repeat split; vm_compute; reflexivity. Qed.

(** ** C76 *)
Local Close Scope R_scope.
Definition named (args : list f64) (x : string) : f64 :=
  nth (match find (fun kn => String.eqb x (snd kn)) (combine (seq 0 10) voc_names) with Some (k, _) => k | None => 99 end) args fzero.
(** what the curve is, in terms of the named parameters: the three terms take
    a1, a2, a3, then b1, b2, b3, then c1, c2, c3 as factor, time constant and offset *)
Theorem C76_curve : forall exp t args, length args = 10 ->
  let v := named args in
  voc_curve exp t args = Ok (fadd (fadd (fadd (v "voc"%string)
    (fmul (v "a1"%string) (exp (fdiv (fopp (fadd t (v "a3"%string))) (v "a2"%string)))))
    (fmul (v "b1"%string) (exp (fdiv (fopp (fadd t (v "b3"%string))) (v "b2"%string)))))
    (fmul (v "c1"%string) (exp (fdiv (fopp (fadd t (v "c3"%string))) (v "c2"%string))))).
Proof.
  intros exp t args HL v. subst v. do 10 (destruct args as [| ? args]; [discriminate HL|]). destruct args; [reflexivity | discriminate HL].
Qed.
(** not a1, b1, c1 and so on as documented and as the bounds intend *)
Theorem C76_documented_refuted : ~ forall exp t args, length args = 10 ->
  let v := named args in
  voc_curve exp t args = Ok (fadd (fadd (fadd (v "voc"%string)
    (fmul (v "a1"%string) (exp (fdiv (fopp (fadd t (v "c1"%string))) (v "b1"%string)))))
    (fmul (v "a2"%string) (exp (fdiv (fopp (fadd t (v "c2"%string))) (v "b2"%string)))))
    (fmul (v "a3"%string) (exp (fdiv (fopp (fadd t (v "c3"%string))) (v "b3"%string))))).
Proof.
  intros H. specialize (H (fun _ => fone) fzero (map fofZ [1; 2; 3; 10; 20; 30; 100; 200; 300; 50]%Z) eq_refl). cbv zeta in H.
  apply (f_equal (fun r => match r with Ok x => ftrunc x | _ => 0%Z end)) in H. vm_compute in H. discriminate H.
Qed.
Example C76_names : voc_names = ["a1"; "a2"; "a3"; "b1"; "b2"; "b3"; "c1"; "c2"; "c3"; "voc"]%string.
Proof. vm_compute. reflexivity. Qed.

Print Assumptions C73_two. Print Assumptions C73_progress. Print Assumptions C73_all_last. Print Assumptions C73_own_refuted.
Print Assumptions C73_early_refuted. Print Assumptions C73_shutdown_refuted. Print Assumptions C73_in_turn.
Print Assumptions C74_args.
Print Assumptions C74_short. Print Assumptions C74_names. Print Assumptions C74_drift.
Print Assumptions C75_same_verdict. Print Assumptions C75_exact_below. Print Assumptions C75_never_more.
Print Assumptions C75_no_threshold. Print Assumptions C75_zero_refuted.
Print Assumptions C76_curve. Print Assumptions C76_documented_refuted.
