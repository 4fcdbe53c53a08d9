(** * Properties C25-C27: the generation loop, the goal, the status quo inquiry *)
From Coq Require Import List Bool Arith ZArith Reals Lia Lra.
From Flocq Require Import BinarySingleNaN.
From Verif Require Import Flt FltMore Py SampFloat FManModel RunModel RunProofs ScoreProofs.
Import ListNotations.
Local Open Scope nat_scope.

(** Vocabulary (RunProofs.v, ScoreProofs.v), all read off the log of events:
    [starts l], [funcs l]: the generation numbers begun, and passed to the
    callback; [since_up l]: for the unsuccessful generations since the last
    successful one, was F limited; [since_inquiry cs]: the ratings reported
    since the last inquiry. *)

Section Run.
Variable npsin : f64 -> f64.
Variables up0 up1 : f64.
Notation de_call := (de_call npsin up0 up1).

(** somebody asked for shutdown, or a challenge failed, in generation [k] *)
Definition shut_in (gs : nat -> gen) (k : nat) : Prop :=
  g_wait (gs k) = false \/ g_loop (gs k) = false \/ g_chal (gs k) <> ChDone.

Theorem C25_consecutive_bounded : forall o F CR Np ad running sc gs s l r,
  de_call o F CR Np ad false running sc gs = Some (s, l, r) ->
  exists g m, starts l = seq 0 g /\ funcs l = (if o_func o then seq 0 m else []) /\
    g <= o_maxiter o /\ m <= g <= S m.
Proof.
  intros o F CR Np ad running sc gs s l r. unfold RunModel.de_call. intros [= E]. unfold run in E.
  destruct (gens npsin up0 up1 o (o_maxiter o) 0 gs _) as [[s1 l1] r1] eqn:G.
  assert (SL : starts l = starts l1 /\ funcs l = funcs l1).
  { destruct r1; try (destruct (r_run s1)); injection E as <- <- <-; rewrite ?starts_app, ?funcs_app; simpl; rewrite ?app_nil_r; auto. }
  destruct SL as [-> ->]. destruct (gens_path _ _ _ _ _ _ _ _ _ _ _ G) as (k & s2 & la & lb & P & -> & H).
  destruct (path_log _ _ _ _ _ _ _ _ _ _ P) as (_ & S1 & S2). rewrite Nat.sub_0_r in *. rewrite starts_app, funcs_app, S1, S2.
  destruct H as [(_ & -> & _ & ->)|(L & H)].
  - exists (o_maxiter o), (o_maxiter o). simpl. rewrite !app_nil_r. repeat split; auto.
  - rewrite (gstep_starts _ _ _ _ _ _ _ _ _ _ H). exists (S k).
    destruct (gstep_funcs_end _ _ _ _ _ _ _ _ _ _ H) as [-> |(-> & _ & _ & Hf)].
    + exists k. rewrite app_nil_r. split; [now rewrite seq_S|]. split; [reflexivity|]. split; [simpl in L; lia|lia].
    + exists (S k). rewrite Hf. split; [now rewrite seq_S|]. split; [now rewrite seq_S|]. split; [simpl in L; lia|lia].
Qed.

Theorem C25_stops_for_a_reason : forall o F CR Np ad running sc gs s l r,
  de_call o F CR Np ad false running sc gs = Some (s, l, r) ->
  match r with
  | RMaxIter => starts l = seq 0 (o_maxiter o)
  | RShutdown => exists k, starts l = seq 0 (S k) /\ k < o_maxiter o /\
      (shut_in gs k \/ (k = 0 /\ running = false) \/ (0 < k /\ o_func o = true /\ g_func (gs (k - 1)) = FShut))
  | RDwell => o_bitter o = false /\ ad = true /\
      exists a b, since_up l = repeat false a ++ repeat true b /\ 0 < b /\ (o_grave o < Z.of_nat b)%Z
  | RRaised e => (e = TypeError /\ truthy_goal (o_goal o) = true) \/
      (e = UserError /\ o_func o = true /\ exists k, g_func (gs k) = FRaise) \/
      (e = ZeroDivisionError /\ feqb (sqs sc) fzero = true)
  end.
Proof.
  intros o F CR Np ad running sc gs s l r. unfold RunModel.de_call. intros [= E]. unfold run in E.
  set (s0 := mkRst running (fm_init F CR Np ad) 0 sc) in *.
  destruct (gens npsin up0 up1 o (o_maxiter o) 0 gs s0) as [[s1 l1] r1] eqn:G.
  assert (SL : r = r1 /\ starts l = starts l1 /\ since_up l = since_up l1).
  { destruct r1; try (destruct (r_run s1)); injection E as <- <- <-; rewrite ?starts_app, ?since_app; simpl; rewrite ?app_nil_r; auto. }
  destruct SL as (-> & -> & ->). destruct (gens_path _ _ _ _ _ _ _ _ _ _ _ G) as (k & s2 & la & lb & P & -> & H).
  destruct (path_log _ _ _ _ _ _ _ _ _ _ P) as (_ & S1 & S2). rewrite Nat.sub_0_r in *. simpl in H.
  assert (D0 : DInv o s0 []).
  { split; [apply LimI_init|]. exists 0, 0. split; [reflexivity|]. split; [lia|]. intros _. split; [reflexivity|lia]. }
  assert (D := DInv_path _ _ _ _ _ _ _ _ _ _ P _ D0). simpl in D.
  destruct H as [(-> & -> & _ & ->)|(L & H)].
  - now rewrite app_nil_r.
  - assert (SS := gstep_starts _ _ _ _ _ _ _ _ _ _ H). rewrite starts_app, since_app, S1, SS.
    inversion H; subst; try (match goal with X : fcall _ _ _ _ _ _ _ |- _ => destruct (fcall_log _ _ _ _ _ _ _ X) as (_ & _ & _ & _ & _ & _ & _ & [Y|(Y & Z1 & Z2)]) end); try discriminate; try (injection Y as Y; subst r1).
    + match goal with X : ~ completes _ _ |- _ => rename X into NC end.
      exists k. split; [now rewrite seq_S|]. split; auto. unfold shut_in.
      assert (PR := path_run _ _ _ _ _ _ _ _ _ _ P). rewrite ?Nat.sub_0_r in PR.
      destruct PR as [R|[(-> & ->)|(A & B & C)]].
      * left. unfold completes in NC. destruct (g_wait (gs k)); auto. destruct (g_loop (gs k)); auto. destruct (g_chal (gs k)); try (right; right; congruence); tauto.
      * unfold completes in NC. simpl in NC. destruct running; auto.
        left. destruct (g_wait (gs 0)); auto. destruct (g_loop (gs 0)); auto. destruct (g_chal (gs 0)); try (right; right; congruence); tauto.
      * auto.
    + left. auto.
    + right. right. match goal with X : answer _ _ _ = Raise _ |- _ => apply answer_raise in X; destruct X as [-> X]; split; auto; rewrite (path_sqs _ _ _ _ _ _ _ _ _ _ P) in X; exact X end.
    + right. left. eauto.
    + destruct D as [I (a & b & E1 & B1 & B2)]. split; auto. split.
      * assert (A := path_adaptive _ _ _ _ _ _ _ _ _ _ P). destruct (LimI_down _ I) as [I' _].
        match goal with X : fm_limited (fm_down _) = true |- _ => destruct (I' X) as [_ AA] end. rewrite adaptive_down, A in AA.
        unfold s0 in AA. simpl in AA. unfold fm_init in AA. destruct F; [|destruct (feqb lo fzero)]; simpl in AA; congruence.
      * simpl. exists a, (S b). rewrite E1, <- app_assoc, repeat_snoc. split; auto. split; [lia|]. match goal with X : o_bitter o = false |- _ => destruct (B2 X) as [B3 _] end. lia.
    + right. left. eauto.
    + right. left. eauto.
Qed.

(** it stops the first time that happens: before every generation begun, at most
    dwellByGrave limited generations have passed since the last successful one *)
Theorem C25_does_not_overstay : forall o F CR Np ad running sc gs s l r,
  de_call o F CR Np ad false running sc gs = Some (s, l, r) -> o_bitter o = false ->
  forall l1 k l2, l = l1 ++ EStart k :: l2 -> (Z.of_nat (count_true (since_up l1)) <= Z.max 0 (o_grave o))%Z.
Proof.
  intros o F CR Np ad running sc gs s l r. unfold RunModel.de_call. intros [= E] Hb l1 k l2 El. unfold run in E.
  set (s0 := mkRst running (fm_init F CR Np ad) 0 sc) in *.
  destruct (gens npsin up0 up1 o (o_maxiter o) 0 gs s0) as [[s1 lg] r1] eqn:G.
  assert (SL : exists l3, lg = l1 ++ EStart k :: l3).
  { destruct r1; try (destruct (r_run s1)); injection E as <- <- <-; eauto;
    (destruct l2 as [|e l2] using rev_ind; [apply app_inj_tail in El; destruct El; discriminate|]; clear IHl2;
     rewrite app_comm_cons, app_assoc in El; apply app_inj_tail in El; destruct El as [El _]; eauto). }
  destruct SL as [l3 SL]. clear El E.
  destruct (gens_path _ _ _ _ _ _ _ _ _ _ _ G) as (k1 & s2 & la & lb & P & E & H).
  assert (D0 : DInv o s0 []).
  { split; [apply LimI_init|]. exists 0, 0. split; [reflexivity|]. split; [lia|]. intros _. split; [reflexivity|lia]. }
  assert (Q : exists sx, DInv o sx l1).
  { destruct H as [(_ & _ & _ & ->)|(L & H)].
    - rewrite app_nil_r in E. rewrite E in SL. exact (path_prefix _ _ _ _ _ _ _ _ _ _ P [] D0 _ _ _ SL).
    - (* the last generation begins with its only EStart *)
      assert (D := DInv_path _ _ _ _ _ _ _ _ _ _ P _ D0). simpl in D.
      assert (Sb := gstep_starts _ _ _ _ _ _ _ _ _ _ H).
      assert (Hd : exists t, lb = EStart k1 :: t) by (inversion H; subst; eauto). destruct Hd as [t ->]. simpl in Sb. injection Sb as Sb.
      rewrite E in SL. clear - SL D Sb P D0.
      assert (C : (exists t', la = l1 ++ EStart k :: t') \/ l1 = la).
      { clear - SL Sb. revert l1 SL. induction la as [|a la IH]; intros l1 SL; simpl in SL.
        - right. destruct l1 as [|e l1]; auto. exfalso. simpl in SL. injection SL as _ SL. rewrite SL in Sb.
          change (starts (l1 ++ EStart k :: l3) = []) in Sb. rewrite starts_app in Sb. simpl in Sb. destruct (starts l1); discriminate.
        - destruct l1 as [|e l1]; simpl in SL; injection SL as Ea SL; subst.
          + left. exists la. reflexivity.
          + destruct (IH _ SL) as [(t' & ->)| ->]; [left; exists t'; reflexivity|right; reflexivity]. }
      destruct C as [(t' & Et)| ->].
      + exact (path_prefix _ _ _ _ _ _ _ _ _ _ P [] D0 _ _ _ Et).
      + exists s2. exact D. }
  destruct Q as (sx & _ & a & b & E1 & _ & B). rewrite E1, count_repeat. now apply B.
Qed.

(** and a run that is not shut down, without goal, ends only by maxiter or dwelling *)
Theorem C25_undisturbed : forall o F CR Np ad sc gs s l r,
  de_call o F CR Np ad false true sc gs = Some (s, l, r) ->
  truthy_goal (o_goal o) = false -> feqb (sqs sc) fzero = false ->
  (forall k, g_wait (gs k) = true /\ g_loop (gs k) = true /\ g_chal (gs k) = ChDone /\ g_func (gs k) = FOk) ->
  r_run s = false /\ last l (EStart 0) = EReport /\
  (r = RMaxIter \/ (r = RDwell /\ o_bitter o = false /\ ad = true)).
Proof.
  intros o F CR Np ad sc gs s l r E Hg Hq U. assert (R := C25_stops_for_a_reason _ _ _ _ _ _ _ _ _ _ _ E).
  unfold RunModel.de_call in E. injection E as E. unfold run in E.
  destruct (gens npsin up0 up1 o (o_maxiter o) 0 gs _) as [[s1 lg] r1] eqn:G.
  assert (RR : r = RMaxIter \/ (r = RDwell /\ o_bitter o = false /\ ad = true)).
  { destruct r; auto.
    - destruct R as (k & _ & _ & [S|[[_ S]|(_ & _ & S)]]); try discriminate.
      + destruct (U k) as (A & B & C & D). destruct S as [S|[S|S]]; congruence.
      + destruct (U (k - 1)) as (A & B & C & D). congruence.
    - right. destruct R as (A & B & _). auto.
    - destruct R as [(_ & X)|[(_ & _ & k & X)|(_ & X)]]; try congruence. destruct (U k) as (A & B & C & D). congruence. }
  assert (Run1 : r_run s1 = true).
  { destruct (gens_path _ _ _ _ _ _ _ _ _ _ _ G) as (k & s2 & la & lb & P & -> & H).
    assert (R2 : r_run s2 = true).
    { destruct (path_run _ _ _ _ _ _ _ _ _ _ P) as [X|[(-> & ->)|(_ & _ & X)]]; auto. destruct (U (k - 1)) as (A & B & C & D). congruence. }
    destruct H as [(_ & _ & -> & _)|(L & H)]; auto.
    inversion H; subst; auto; try (match goal with X : fcall _ _ _ _ _ _ _ |- _ => destruct (fcall_log _ _ _ _ _ _ _ X) as (_ & _ & _ & _ & _ & _ & _ & [Y|(Y & Z1 & Z2)]) end); try discriminate;
    try (destruct (U k) as (A & B & C & D); congruence).
    destruct (U k) as (A & B & C & D). exfalso. match goal with X : ~ completes _ _ |- _ => apply X end. unfold completes. auto. }
  rewrite Run1 in E. destruct RR as [RR|RR]; (split; [|split; auto]); (destruct r1; injection E as <- <- <-; try (destruct RR; discriminate); try discriminate; try (apply last_last); try reflexivity).
Qed.

(** whatever happens, unless an exception escapes the optimizer ends stopped *)
Theorem C25_ends_stopped : forall o F CR Np ad running sc gs s l r,
  de_call o F CR Np ad false running sc gs = Some (s, l, r) -> (forall e, r <> RRaised e) -> r_run s = false.
Proof.
  intros o F CR Np ad running sc gs s l r. unfold RunModel.de_call. intros [= E] N. unfold run in E.
  destruct (gens npsin up0 up1 o (o_maxiter o) 0 gs _) as [[s1 l1] r1] eqn:G.
  destruct r1; try (destruct (r_run s1) eqn:X); injection E as <- <- <-; auto. exfalso. eapply N; eauto.
Qed.

(** ** C26 *)
(** any number that python considers true, NaN included *)
Theorem C26_goal_raises : forall o F CR Np ad sc gs x, o_goal o = Some x -> feqb x fzero = false -> 0 < o_maxiter o ->
  g_wait (gs 0) = true -> g_loop (gs 0) = true -> g_chal (gs 0) = ChDone ->
  exists s, de_call o F CR Np ad false true sc gs = Some (s, [EStart 0], RRaised TypeError) /\ r_run s = true.
Proof.
  intros o F CR Np ad sc gs x Hg Hx Hm W L C. unfold RunModel.de_call, run. destruct (o_maxiter o) as [|n]; [lia|].
  simpl. unfold generation. rewrite W, L, C. simpl. unfold truthy_goal. rewrite Hg, Hx. simpl. eexists. split; reflexivity.
Qed.
Theorem C26_goal_never_met : forall o F CR Np ad running sc gs x s l r, o_goal o = Some x -> feqb x fzero = false ->
  de_call o F CR Np ad false running sc gs = Some (s, l, r) ->
  funcs l = [] /\ (forall k, ~ In (EUp k) l) /\ (forall k b, ~ In (EDown k b) l).
Proof.
  intros o F CR Np ad running sc gs x s l r Hg Hx. unfold RunModel.de_call. intros [= E]. unfold run in E.
  assert (T : truthy_goal (o_goal o) = true) by (unfold truthy_goal; now rewrite Hg, Hx).
  destruct (gens npsin up0 up1 o (o_maxiter o) 0 gs _) as [[s1 l1] r1] eqn:G.
  assert (Q : l1 = [] \/ l1 = [EStart 0]).
  { destruct (gens_path _ _ _ _ _ _ _ _ _ _ _ G) as (k & s2 & la & lb & P & -> & H).
    inversion P; subst; [|match goal with X : gstep _ _ _ _ _ _ _ _ _ None |- _ => inversion X; congruence end].
    destruct H as [(_ & _ & _ & ->)|(L & H)]; auto. right. inversion H; subst; try congruence; reflexivity. }
  assert (Q' : l = [] \/ l = [EStart 0] \/ l = [EReport] \/ l = [EStart 0; EReport]).
  { destruct r1; try (destruct (r_run s1)); injection E as <- <- <-; destruct Q as [-> | ->]; auto. }
  destruct Q' as [-> |[-> |[-> | ->]]]; simpl; repeat split; auto; intros; intuition congruence.
Qed.
(** goalSSE = 0 (or -0.0) is the same as none *)
Theorem C26_zero_goal_ignored : forall mi bi gr fu F CR Np ad ps running sc gs x, feqb x fzero = true ->
  de_call (mkOpts mi bi gr (Some x) fu) F CR Np ad ps running sc gs = de_call (mkOpts mi bi gr None fu) F CR Np ad ps running sc gs.
Proof.
  intros mi bi gr fu F CR Np ad ps running sc gs x Hx. unfold RunModel.de_call. destruct ps; auto. f_equal. unfold run. simpl.
  assert (T : truthy_goal (Some x) = false) by (unfold truthy_goal; now rewrite Hx).
  assert (GG : forall kg g s, generation npsin up0 up1 (mkOpts mi bi gr (Some x) fu) kg g s = generation npsin up0 up1 (mkOpts mi bi gr None fu) kg g s).
  { intros. unfold generation. cbn [o_goal o_bitter o_grave]. rewrite T. reflexivity. }
  assert (GS : forall n kg s, gens npsin up0 up1 (mkOpts mi bi gr (Some x) fu) n kg gs s = gens npsin up0 up1 (mkOpts mi bi gr None fu) n kg gs s).
  { induction n as [|n IH]; intros kg s; auto. simpl. rewrite GG. destruct (generation _ _ _ _ _ _ _) as [[? ?] [?|]]; auto. now rewrite IH. }
  now rewrite GS.
Qed.

(** ** C27 *)
Notation rcalls := (rcalls npsin).
Notation inquire := (inquire npsin).

(** nothing counts before the first inquiry, which says yes; ratings of at least
    1 since the last inquiry are added up exactly, r counting r - 1/2 *)
Theorem C27_score : forall cs q, 
  let s := rcalls (mkScore None q) cs in
  match since_inquiry cs with
  | None => rscore s = None /\ forall u, snd (inquire s u) = Ok true
  | Some rs =>
    exists x, rscore s = Some x /\
    ((forall r, In r rs -> (0 <= r < 2^51)%Z) -> isnan x = false /\ (0 <= key x)%R /\ (rs <> [] -> fleb tenth x = true) /\ (rs = [] -> x = fzero)) /\
    ((forall r, In r rs -> (1 <= r)%Z) -> (fold_right (fun r a => 2 * r - 1 + a) 0 rs < 2^51)%Z ->
      isfin x = true /\ B2R x = (IZR (fold_right (fun r a => 2 * r - 1 + a) 0 rs)%Z / 2)%R)
  end.
Proof.
  intros cs q s. assert (R := rscore_spec npsin cs q). fold s in R. destruct (since_inquiry cs) as [rs|]; simpl in R.
  - exists (fsum rs). split; auto. split.
    + intros H. destruct (fsum_ge rs H) as (N & G & T). split; auto. split; auto. split.
      * intros Hn. apply fleb_spec. destruct tenth_val as [Ft _]. split; [now apply nan_fin|]. split; [exact N|]. rewrite (key_fin _ Ft). exact (T Hn).
      * intros ->. reflexivity.
    + intros H L. destruct (fsum_exact rs H L) as [Fx V]. split; auto. 
  - split; auto. intros u. unfold RunModel.inquire. now rewrite R.
Qed.
(** every inquiry resets the score *)
Theorem C27_inquiry_resets : forall s u, rscore (fst (inquire s u)) = Some fzero /\ sqs (fst (inquire s u)) = sqs s.
Proof. intros s u. unfold RunModel.inquire. destruct (rscore s); auto. Qed.
(** a score above the status quo score: always yes *)
Theorem C27_above_status_quo : forall s x u, rscore s = Some x -> isfin (sqs s) = true -> fltb fzero (sqs s) = true ->
  fltb (sqs s) x = true -> snd (inquire s u) = Ok true.
Proof.
  intros s x u E F P L. unfold RunModel.inquire. rewrite E. simpl. unfold keep_sq.
  assert (Z : feqb (sqs s) fzero = false).
  { destruct (feqb (sqs s) fzero) eqn:Z; auto. apply feqb_spec in Z. apply fltb_spec in P. rewrite key_fzero in *. lra. }
  rewrite Z. now rewrite (quotient_gt1 x (sqs s)).
Qed.
(** no replacement since the last inquiry: always no, given that np.sin(-pi/2) is -1.0 *)
Theorem C27_no_improvement_no : forall cs q u, npsin (fmul npi (flit (-1) (-1))) = flit (-1) 0 ->
  since_inquiry cs = Some [] -> let s := rcalls (mkScore None q) cs in
  isfin (sqs s) = true -> fltb fzero (sqs s) = true -> unit_draw u -> snd (inquire s u) = Ok false.
Proof.
  intros cs q u HS HI s F P [U _]. assert (R := rscore_spec npsin cs q). fold s in R. rewrite HI in R. simpl in R.
  unfold RunModel.inquire. rewrite R. simpl. unfold keep_sq.
  assert (Z : feqb (sqs s) fzero = false).
  { destruct (feqb (sqs s) fzero) eqn:Z; auto. apply feqb_spec in Z. apply fltb_spec in P. rewrite key_fzero in *. lra. }
  rewrite Z. apply fltb_spec in P. destruct P as (_ & _ & P). rewrite key_fzero, (key_fin _ F) in P.
  destruct (pos_finite _ F P) as (m & e & H & E). rewrite E.
  assert (D : fdiv (fsum []) (BinarySingleNaN.B754_finite false m e H) = fzero) by reflexivity. rewrite D.
  assert (L1 : fltb fone fzero = false) by (vm_compute; reflexivity). rewrite L1. f_equal.
  unfold keep_prob. assert (A : fsub fzero h_half = flit (-1) (-1)) by (apply feqb_eq; vm_compute; reflexivity). rewrite A, HS.
  assert (B : feqb (fadd h_half (fmul h_half (flit (-1) 0))) fzero = true) by (vm_compute; reflexivity).
  apply not_true_iff_false. intros C. apply fltb_spec in C. apply feqb_spec in B. apply fleb_spec in U. lra.
Qed.
End Run.

(** the probability as a function of score / statusQuoScore *)
Theorem C27_probability : real_prob 0 = 0%R /\ real_prob 1 = 1%R /\
  forall x y, (0 <= x)%R -> (x < y)%R -> (y <= 1)%R -> (real_prob x < real_prob y)%R.
Proof. exact (conj real_prob_0 (conj real_prob_1 real_prob_mono)). Qed.

Print Assumptions C25_consecutive_bounded.
Print Assumptions C25_stops_for_a_reason.
Print Assumptions C25_does_not_overstay.
Print Assumptions C25_undisturbed.
Print Assumptions C25_ends_stopped.
Print Assumptions C26_goal_raises.
Print Assumptions C26_goal_never_met.
Print Assumptions C26_zero_goal_ignored.
Print Assumptions C27_score.
Print Assumptions C27_inquiry_resets.
Print Assumptions C27_above_status_quo.
Print Assumptions C27_no_improvement_no.
Print Assumptions C27_probability.

(** ** Examples *)
Definition ex_sin (_ : f64) : f64 := flit (-1) 0.
Definition ex_gs (k : nat) : gen := mkGen true true ChDone (if k =? 1 then [2; 0]%Z else []) (flit 1 (-1)) FOk.
Definition ex_F : Fval := FSingle (flit 3 (-4)).       (* 0.1875 *)
Definition ex_CR : f64 := flit 3602879701896397 (-52). (* 0.8 *)
Definition ex_sc : score := mkScore None fone.
Definition ex_call (o : opts) (gs : nat -> gen) := de_call ex_sin c_up89 c_up87 o ex_F ex_CR 20 true false true ex_sc gs.
Definition log_of (x : option (rst * list ev * reason)) : list ev := match x with Some (_, l, _) => l | None => [] end.
Definition why (x : option (rst * list ev * reason)) : option reason := match x with Some (_, _, r) => Some r | None => None end.
(** generation 0: first inquiry; 1: two replacements; then nothing works any more *)
Example C25_example_dwell :
  let x := ex_call (mkOpts 500 false 1 None true) ex_gs in
  log_of x = [EStart 0; EUp 0; EFunc 0; EStart 1; EUp 1; EFunc 1; EStart 2; EDown 2 true; EFunc 2; EStart 3; EDown 3 true; EReport] /\
  why x = Some RDwell.
Proof. vm_compute. auto. Qed.
Example C25_example_max :
  let x := ex_call (mkOpts 3 true 1 None true) ex_gs in
  log_of x = [EStart 0; EUp 0; EFunc 0; EStart 1; EUp 1; EFunc 1; EStart 2; EDown 2 true; EFunc 2; EReport] /\ why x = Some RMaxIter.
Proof. vm_compute. auto. Qed.
Example C25_example_shutdown :
  let x := ex_call (mkOpts 500 false 9 None true) (fun k => if k =? 2 then mkGen true true ChShut [] fzero FOk else ex_gs k) in
  log_of x = [EStart 0; EUp 0; EFunc 0; EStart 1; EUp 1; EFunc 1; EStart 2] /\ why x = Some RShutdown.
Proof. vm_compute. auto. Qed.
Example C26_example :
  let x := ex_call (mkOpts 500 false 1 (Some (fofZ 100)) true) ex_gs in
  log_of x = [EStart 0] /\ why x = Some (RRaised TypeError).
Proof. vm_compute. auto. Qed.
Example C27_example : let cs := [CRir 3; CInq fzero; CRir 3; CRir 1; CRir 2] in
  since_inquiry cs = Some [3; 1; 2]%Z /\
  option_map (fun x => feqb x (flit 9 (-1))) (rscore (rcalls ex_sin (mkScore None fone) cs)) = Some true /\
  snd (inquire ex_sin (rcalls ex_sin (mkScore None fone) cs) fzero) = Ok true /\
  snd (inquire ex_sin (rcalls ex_sin (mkScore None fone) (cs ++ [CInq fzero])) fzero) = Ok false.
Proof. vm_compute. auto. Qed.
