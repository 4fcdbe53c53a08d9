(** Proofs about FManModel.v *)
From Coq Require Import List Bool ZArith Reals Lia Lra Psatz.
From Flocq Require Import Core BinarySingleNaN.
From Verif Require Import Flt FltMore Py FManModel.
Import ListNotations.
Open Scope R_scope.
#[local] Arguments fmul : simpl never.
#[local] Arguments fltb : simpl never.
#[local] Arguments flit : simpl never.
#[local] Arguments fofZ : simpl never.
#[local] Arguments three : simpl never.
#[local] Arguments scaleLowest : simpl never.
#[local] Arguments scaleHighest : simpl never.
#[local] Arguments key : simpl never.
#[local] Arguments bpow : simpl never.

(** non-negative finite floats: products with finite non-negative factors *)
Definition nn (x : f64) : Prop := isfin x = true /\ 0 <= B2R x.

Lemma nn_key : forall x, nn x -> key x = B2R x.
Proof. intros x [F _]. now apply key_fin. Qed.
Lemma nn_nan : forall x, nn x -> isnan x = false.
Proof. intros x [F _]. now apply nan_fin. Qed.
Lemma fltb_nn : forall x y, nn x -> nn y -> (fltb x y = true <-> B2R x < B2R y).
Proof. intros. rewrite fltb_spec. rewrite !nn_key by easy. split; [tauto|]. intros; split; [now apply nn_nan|]. split; [now apply nn_nan|auto]. Qed.
Lemma fltb_nn_false : forall x y, nn x -> nn y -> fltb x y = false -> B2R y <= B2R x.
Proof. intros x y Hx Hy H. apply fltb_false in H; auto using nn_nan. now rewrite !nn_key in H. Qed.

(** the product of non-negative finite floats: no NaN, value clamp(rnd) *)
Lemma mul_nn : forall x y, nn x -> nn y ->
  isnan (fmul x y) = false /\ key (fmul x y) = crnd (B2R x * B2R y) /\ 0 <= key (fmul x y).
Proof.
  intros x y [Fx Px] [Fy Py]. destruct (fmul_key x y Fx Fy) as [N K]. repeat split; auto.
  rewrite K. apply crnd_ge0. now apply Rmult_le_pos.
Qed.
Lemma nn_of_bound : forall (x b : f64), isnan x = false -> 0 <= key x -> key x <= B2R b -> nn x.
Proof.
  intros x b N P L. assert (F : isfin x = true). { apply fin_key; auto. generalize (fin_bound b) big_pos. lra. }
  split; auto. now rewrite key_fin in P.
Qed.

Lemma scale_val : B2R scaleLowest = 8016407336719483 * bpow radix2 (-53) /\ isfin scaleLowest = true.
Proof. destruct (flit_val 8016407336719483 (-53)); [reflexivity|lia|auto]. Qed.
Lemma scaleH_val : B2R scaleHighest = 7836263351624663 * bpow radix2 (-53) /\ isfin scaleHighest = true.
Proof. destruct (flit_val 7836263351624663 (-53)); [reflexivity|lia|auto]. Qed.
Lemma bpow53 : bpow radix2 (-53) = / 9007199254740992.
Proof. reflexivity. Qed.
Lemma s0_range : 0.88 < B2R scaleLowest < 0.895.
Proof. rewrite (proj1 scale_val), bpow53. lra. Qed.
Lemma s1_range : 0.86 < B2R scaleHighest < 0.8701.
Proof. rewrite (proj1 scaleH_val), bpow53. lra. Qed.
Lemma nn_s0 : nn scaleLowest.
Proof. split; [apply scale_val|]. generalize s0_range; lra. Qed.
Lemma nn_s1 : nn scaleHighest.
Proof. split; [apply scaleH_val|]. generalize s1_range; lra. Qed.
Lemma three_val : nn three /\ B2R three = 3.
Proof. destruct (fofZ_val 3) as [A B]; [reflexivity|]. split; auto. split; auto. unfold three. rewrite B. lra. Qed.

(** a scaled-down value is finite and not larger *)
Lemma scale_down : forall s x, nn s -> B2R s <= 1 -> nn x ->
  nn (fmul s x) /\ B2R (fmul s x) = rnd (B2R s * B2R x) /\ B2R (fmul s x) <= B2R x.
Proof.
  intros s x Hs Ls Hx. destruct (mul_nn s x Hs Hx) as (N & K & P).
  assert (L : key (fmul s x) <= B2R x).
  { rewrite K. apply Rle_trans with (crnd (B2R x)); [apply crnd_mono|rewrite crnd_B2R; apply Rle_refl].
    destruct Hs, Hx. nra. }
  assert (Hn := nn_of_bound _ x N P L).
  rewrite nn_key in * by easy. split; auto. split; auto.
  rewrite K. apply crnd_rnd. rewrite <- K. apply fin_bound.
Qed.

(** ** the up-scaling constants: anything in (17/16, 2] and (9/8, 2] *)
Definition okup (b c : f64) : Prop := fltb b c = true /\ fleb c (fofZ 2) = true.
Definition okup0 (c : f64) : Prop := okup (flit 17 (-4)) c.
Definition okup1 (c : f64) : Prop := okup (flit 9 (-3)) c.
Lemma okup_val : forall b c, nn b -> okup b c -> nn c /\ B2R b < B2R c.
Proof.
  intros b c Hb [A B]. apply fltb_spec in A. apply fleb_spec in B.
  destruct A as (_ & N & A). destruct B as (_ & _ & B). rewrite nn_key in A by easy.
  rewrite key_fofZ in B by reflexivity.
  assert (2 < big). { change 2 with (bpow radix2 1). apply bpow_lt. lia. }
  assert (F : isfin c = true) by (apply fin_key; auto; destruct Hb; lra).
  rewrite key_fin in A, B by easy. repeat split; auto. destruct Hb; lra.
Qed.
Lemma up0_val : forall c, okup0 c -> nn c /\ 1.0625 < B2R c.
Proof.
  intros c H. assert (V : nn (flit 17 (-4)) /\ B2R (flit 17 (-4)) = 1.0625).
  { destruct (flit_val 17 (-4)) as [A B]; [reflexivity|lia|]. 
    assert (E : B2R (flit 17 (-4)) = 1.0625) by (rewrite B; change (bpow radix2 (-4)) with (/ 16); lra).
    split; auto. split; auto. rewrite E; lra. }
  destruct V as [V E]. apply okup_val in H; auto. rewrite E in H. auto.
Qed.
Lemma up1_val : forall c, okup1 c -> nn c /\ 1.125 < B2R c.
Proof.
  intros c H. assert (V : nn (flit 9 (-3)) /\ B2R (flit 9 (-3)) = 1.125).
  { destruct (flit_val 9 (-3)) as [A B]; [reflexivity|lia|]. 
    assert (E : B2R (flit 9 (-3)) = 1.125) by (rewrite B; change (bpow radix2 (-3)) with (/ 8); lra).
    split; auto. split; auto. rewrite E; lra. }
  destruct V as [V E]. apply okup_val in H; auto. rewrite E in H. auto.
Qed.

(** min(x*c, orig) then the setter's clamp: between x and orig *)
Lemma scale_up : forall c x o, nn c -> 1 <= B2R c -> nn x -> nn o -> B2R x <= B2R o ->
  let v := pymin (fmul x c) o in
  nn v /\ B2R x <= B2R v <= B2R o /\ fltb o v = false /\
  (v = o \/ B2R v = rnd (B2R c * B2R x)).
Proof.
  intros c x o Hc Lc Hx Ho L v. destruct (mul_nn x c Hx Hc) as (N & K & P).
  assert (G : B2R x <= key (fmul x c)).
  { rewrite K. apply Rle_trans with (crnd (B2R x)); [rewrite crnd_B2R; apply Rle_refl|]. apply crnd_mono.
    destruct Hx. nra. }
  unfold v, pymin. destruct (fltb o (fmul x c)) eqn:E.
  - repeat split; auto; try apply Ho; try lra. apply fltb_irrefl.
  - apply fltb_false in E; auto using nn_nan. rewrite (nn_key o Ho) in E.
    assert (Hn := nn_of_bound _ o N P E). rewrite nn_key in * by easy.
    split; auto. split; [lra|]. split.
    + apply not_true_iff_false. intros C. apply fltb_nn in C; auto. lra.
    + right. rewrite K, Rmult_comm. apply crnd_rnd. rewrite Rmult_comm, <- K. apply fin_bound.
Qed.

(** ** the invariant *)
Definition triple (L : R) : R := crnd (3 * L).

(** [FInv]: F is a pair or single within its original range *)
Definition FInv (s : fman) : Prop :=
  nn (fm_crit s) /\ bpow radix2 (-27) <= B2R (fm_crit s) /\ nn (fm_origL s) /\ nn (fm_origH s) /\
  B2R (fm_origL s) <= B2R (fm_origH s) /\
  nn (fm_lowest s) /\ nn (fm_highest s) /\
  B2R (fm_lowest s) <= B2R (fm_origL s) /\ B2R (fm_highest s) <= B2R (fm_origH s) /\
  B2R (fm_lowest s) <= B2R (fm_highest s) /\
  (fm_lowest s = fm_origL s \/ B2R (fm_crit s) < B2R (fm_lowest s)) /\
  match fm_F s with
  | FSingle _ => fm_origL s = fm_origH s
  | FPair lo hi => (hi = fm_origH s \/ key (fmul three lo) < B2R hi) /\ 0 < B2R lo
  end.

Lemma triple_ge : forall x, nn x -> B2R x <= key (fmul three x) /\ isnan (fmul three x) = false.
Proof.
  intros x Hx. destruct three_val as [H3 E3]. destruct (mul_nn three x H3 Hx) as (N & K & P).
  split; auto. rewrite K, E3. apply Rle_trans with (crnd (B2R x)); [rewrite crnd_B2R; apply Rle_refl|].
  apply crnd_mono. destruct Hx; lra.
Qed.
Lemma triple_mono : forall x y, nn x -> nn y -> B2R x <= B2R y -> key (fmul three x) <= key (fmul three y).
Proof.
  intros x y Hx Hy L. destruct three_val as [H3 E3].
  destruct (mul_nn three x H3 Hx) as (_ & K & _). destruct (mul_nn three y H3 Hy) as (_ & K' & _).
  rewrite K, K', E3. apply crnd_mono. lra.
Qed.

Lemma set_lowest_low : forall s v, fltb (fm_origL s) v = false -> fm_lowest (set_lowest s v) = v.
Proof. intros s v H. unfold set_lowest, fm_lowest. rewrite H. simpl. now destruct (fm_F s). Qed.

Lemma FInv_down : forall s, FInv s -> FInv (fm_down s).
Proof.
  intros s I. assert (P27 : 0 < bpow radix2 (-27)) by apply bpow_gt_0. unfold fm_down. destruct (fm_adaptive s); simpl; auto.
  destruct s as [cr F ad oL oH li]; unfold FInv in *; simpl in *.
  destruct I as (C1 & C2 & OL & OH & OO & NL & NH & L1 & H1 & LH & D & P).
  destruct F as [f|lo hi]; unfold fm_lowest, fm_highest, scale0, scale1, set_lowest, set_highest, set_limited in *; simpl in *.
  - subst oH. destruct (scale_down scaleLowest f nn_s0) as (S1 & S2 & S3); auto. { generalize s0_range; lra. }
    change scaleSingle with scaleLowest.
    destruct (fltb cr (fmul scaleLowest f)) eqn:E; simpl; [|intuition auto].
    apply fltb_nn in E; auto.
    assert (E2 : fltb oL (fmul scaleLowest f) = false).
    { apply not_true_iff_false. intros X. apply fltb_nn in X; auto. lra. }
    rewrite E2. intuition lra.
  - destruct (scale_down scaleLowest lo nn_s0) as (S1 & S2 & S3); auto. { generalize s0_range; lra. }
    destruct (fltb cr (fmul scaleLowest lo)) eqn:E; simpl.
    + apply fltb_nn in E; auto.
      assert (E2 : fltb oL (fmul scaleLowest lo) = false).
      { apply not_true_iff_false. intros X. apply fltb_nn in X; auto. lra. }
      rewrite E2. assert (T := triple_mono _ _ S1 NL S3). intuition lra.
    + destruct (scale_down scaleHighest hi nn_s1) as (T1 & T2 & T3); auto. { generalize s1_range; lra. }
      destruct (triple_ge lo NL) as [G Gn].
      destruct (fltb (fmul three lo) (fmul scaleHighest hi)) eqn:E'; simpl.
      * apply fltb_spec in E'. destruct E' as (_ & _ & E'). rewrite (nn_key _ T1) in E'.
        assert (E2 : fltb oH (fmul scaleHighest hi) = false).
        { apply not_true_iff_false. intros X. apply fltb_nn in X; auto. lra. }
        rewrite E2. intuition lra.
      * tauto.
Qed.

Lemma FInv_up : forall up0 up1 s, okup0 up0 -> okup1 up1 -> FInv s -> FInv (fm_up up0 up1 s).
Proof.
  intros up0 up1 s U0 U1 I. assert (P27 : 0 < bpow radix2 (-27)) by apply bpow_gt_0. unfold fm_up. destruct (fm_adaptive s); simpl; auto.
  apply up0_val in U0. apply up1_val in U1. destruct U0 as [U0 V0]. destruct U1 as [U1 V1].
  destruct s as [cr F ad oL oH li]; unfold FInv in *; simpl in *.
  destruct I as (C1 & C2 & OL & OH & OO & NL & NH & L1 & H1 & LH & D & P).
  destruct F as [f|lo hi]; unfold fm_lowest, fm_highest, set_lowest, set_highest, set_limited in *; simpl in *.
  - subst oH. destruct (fltb f oL) eqn:E; simpl; [|tauto].
    apply fltb_nn in E; auto.
    destruct (scale_up up0 f oL) as (S1 & S2 & S3 & S4); auto; [lra|]. rewrite S3.
    repeat (split; [tauto || lra|]). split; [|auto].
    destruct D as [->|D]; [lra|]. destruct S4 as [S4|S4]; [now left|right; lra].
  - destruct (fltb hi oH) eqn:E; simpl.
    + apply fltb_nn in E; auto.
      destruct (scale_up up1 hi oH) as (S1 & S2 & S3 & S4); auto; [lra|]. rewrite S3.
      repeat (split; [tauto || lra|]).
      destruct P as [[->|P] P0]; [lra|]. split; auto. right. lra.
    + apply fltb_nn_false in E; auto.
      destruct (fltb lo oL) eqn:E2; simpl; [|tauto].
      apply fltb_nn in E2; auto.
      destruct (scale_up up0 lo oL) as (S1 & S2 & S3 & S4); auto; [lra|]. rewrite S3.
      repeat (split; [tauto || lra|]). split.
      * destruct D as [->|D]; [lra|]. destruct S4 as [S4|S4]; [now left|right; lra].
      * destruct P as [[P|P] P0]; [split; [now left|lra]|]. split; [|lra].
        (* hi = oH numerically; positive, so identical *)
        left. destruct (triple_ge lo NL) as [G _].
        assert (EQ : key hi = key oH) by (rewrite !nn_key by easy; lra).
        apply key_inj; auto using nn_nan. rewrite nn_key by easy. destruct NL; lra.
Qed.

(** ** the initial state *)
Lemma crnd_half : crnd (/ 2) = / 2.
Proof. change (/ 2) with (bpow radix2 (-1)). apply crnd_bpow. lia. Qed.
Lemma criticalF_val : forall CR Np, fleb fzero CR = true -> fleb CR fone = true -> (1 <= Np < 2^53)%Z ->
  nn (criticalF CR Np) /\ bpow radix2 (-27) <= B2R (criticalF CR Np) <= 1.
Proof.
  intros CR Np C0 C1 HN.
  apply fleb_spec in C0, C1. destruct C0 as (_ & N & C0). destruct C1 as (_ & _ & C1).
  rewrite key_fone in C1. rewrite key_fzero in C0.
  assert (B1 : 1 < big) by (change 1 with (bpow radix2 0); apply bpow_lt; lia).
  assert (F : isfin CR = true) by (apply fin_key; auto; lra). rewrite key_fin in C0, C1 by easy.
  destruct (flit_val 1 (-1)) as [Fh Eh]; [reflexivity|lia|].
  assert (Eh' : B2R (flit 1 (-1)) = / 2) by (rewrite Eh; change (bpow radix2 (-1)) with (/ 2); lra).
  (* 0.5*CR *)
  destruct (fmul_key (flit 1 (-1)) CR Fh F) as [N1 K1]. rewrite Eh' in K1.
  assert (R1 : 0 <= key (fmul (flit 1 (-1)) CR) <= / 2).
  { rewrite K1. split; [apply crnd_ge0; lra|].
    rewrite <- crnd_half at 2. apply crnd_mono. lra. }
  assert (F1 : isfin (fmul (flit 1 (-1)) CR) = true) by (apply fin_key; auto; lra).
  rewrite key_fin in R1 by easy.
  (* 1 - 0.5*CR *)
  destruct (fofZ_val 1) as [Fo Eo]; [reflexivity|]. fold fone in Fo, Eo.
  destruct (fsub_key fone _ Fo F1) as [N2 K2]. rewrite Eo in K2.
  assert (R2 : / 2 <= key (fsub fone (fmul (flit 1 (-1)) CR)) <= 1).
  { rewrite K2. split.
    - rewrite <- crnd_half. apply crnd_mono; lra.
    - apply Rle_trans with (crnd 1); [apply crnd_mono; lra|rewrite crnd_1; lra]. }
  assert (F2 : isfin (fsub fone (fmul (flit 1 (-1)) CR)) = true) by (apply fin_key; auto; lra).
  rewrite key_fin in R2 by easy.
  (* / Np *)
  destruct (fofZ_val Np) as [Fn En]; [lia|].
  assert (Np1 : 1 <= IZR Np) by (apply IZR_le; lia).
  assert (Np2 : IZR Np <= bpow radix2 53) by (rewrite <- (IZR_Zpower radix2 53) by lia; apply IZR_le; simpl; lia).
  destruct (fdiv_key _ _ F2 Fn) as [N3 K3]; [lra|]. rewrite En in K3.
  set (x := B2R (fsub fone (fmul (flit 1 (-1)) CR))) in *.
  assert (I1 : 0 < / IZR Np <= 1) by (split; [apply Rinv_0_lt_compat; lra|rewrite <- Rinv_1; apply Rinv_le; lra]).
  assert (I2 : bpow radix2 (-53) <= / IZR Np). { change (-53)%Z with (- (53))%Z. rewrite bpow_opp. apply Rinv_le; lra. }
  assert (R3 : bpow radix2 (-54) <= key (fdiv (fsub fone (fmul (flit 1 (-1)) CR)) (fofZ Np)) <= 1).
  { rewrite K3. split.
    - rewrite <- (crnd_bpow (-54)) by lia. apply crnd_mono.
      change (-54)%Z with (-1 + -53)%Z. rewrite bpow_plus. change (bpow radix2 (-1)) with (/ 2).
      unfold Rdiv. apply Rmult_le_compat; try lra. apply bpow_ge_0.
    - apply Rle_trans with (crnd 1); [|rewrite crnd_1; lra]. apply crnd_mono. unfold Rdiv. nra. }
  assert (P54 : 0 < bpow radix2 (-54)) by apply bpow_gt_0.
  assert (F3 : isfin (fdiv (fsub fone (fmul (flit 1 (-1)) CR)) (fofZ Np)) = true) by (apply fin_key; auto; lra).
  rewrite key_fin in R3 by easy.
  destruct (fsqrt_key _ F3) as [F4 E4]; [lra| |].
  { intros C. rewrite C in R3. simpl in R3. lra. }
  fold (criticalF CR Np) in F4, E4.
  assert (R4 : bpow radix2 (-27) <= B2R (criticalF CR Np) <= 1).
  { rewrite E4. set (y := B2R (fdiv _ _)) in *. split.
    - assert (bpow radix2 (-27) <= sqrt y).
      { rewrite <- (sqrt_square (bpow radix2 (-27))) by apply bpow_ge_0. apply sqrt_le_1_alt.
        rewrite <- bpow_plus. exact (proj1 R3). }
      apply rnd_mono in H. unfold rnd at 1 in H. rewrite round_generic in H; auto with typeclass_instances.
      apply generic_format_bpow. unfold SpecFloat.fexp, SpecFloat.emin. lia.
    - assert (sqrt y <= 1) by (rewrite <- sqrt_1; apply sqrt_le_1_alt; lra).
      apply rnd_mono in H. unfold rnd at 2 in H. rewrite round_generic in H; auto with typeclass_instances.
      change 1 with (bpow radix2 0). apply generic_format_bpow. unfold SpecFloat.fexp, SpecFloat.emin. lia. }
  assert (P27 : 0 < bpow radix2 (-27)) by apply bpow_gt_0.
  repeat split; auto; lra.
Qed.

(** what the constructor accepts here *)
Definition okF (F : Fval) : Prop :=
  match F with FSingle f => nn f | FPair lo hi => nn lo /\ nn hi /\ B2R lo <= B2R hi end.
(** the lower end is zero: replaced by the critical value, not adaptive *)
Definition zeroF (F : Fval) : bool := match F with FSingle _ => false | FPair lo _ => feqb lo fzero end.

Lemma FInv_init : forall F CR Np ad, okF F -> zeroF F = false ->
  fleb fzero CR = true -> fleb CR fone = true -> (1 <= Np < 2^53)%Z ->
  FInv (fm_init F CR Np ad).
Proof.
  intros F CR Np ad HF HZ C0 C1 HN.
  destruct (criticalF_val CR Np C0 C1 HN) as [A B].
  assert (P27 : 0 < bpow radix2 (-27)) by apply bpow_gt_0.
  unfold fm_init. destruct F as [f|lo hi]; simpl in *.
  - unfold FInv, fm_lowest, fm_highest; simpl. intuition lra.
  - rewrite HZ. unfold FInv; simpl. destruct HF as (H1 & H2 & H3).
    assert (0 < B2R lo).
    { destruct H1 as [F1 P1]. destruct P1 as [P1|P1]; auto. exfalso.
      apply not_true_iff_false in HZ. apply HZ. apply feqb_spec. rewrite key_fzero, key_fin by easy. auto using nan_fin. }
    unfold fm_lowest, fm_highest; simpl. intuition lra.
Qed.

Section Reach.
Variables (up0 up1 : f64).
Hypothesis (U0 : okup0 up0) (U1 : okup1 up1).

Lemma FInv_run : forall ops s, FInv s -> FInv (fm_run up0 up1 s ops).
Proof.
  induction ops as [|[|] ops IH]; simpl; intros s I; auto.
  - apply IH. now apply FInv_up.
  - apply IH. now apply FInv_down.
Qed.

Lemma run_const : forall ops s,
  fm_crit (fm_run up0 up1 s ops) = fm_crit s /\ fm_origL (fm_run up0 up1 s ops) = fm_origL s /\
  fm_origH (fm_run up0 up1 s ops) = fm_origH s /\ fm_adaptive (fm_run up0 up1 s ops) = fm_adaptive s.
Proof.
  assert (S : forall s o, fm_crit (fm_step up0 up1 s o) = fm_crit s /\ fm_origL (fm_step up0 up1 s o) = fm_origL s /\
     fm_origH (fm_step up0 up1 s o) = fm_origH s /\ fm_adaptive (fm_step up0 up1 s o) = fm_adaptive s).
  { intros [cr F ad oL oH li] [|]; unfold fm_step, fm_up, fm_down; simpl; destruct ad; simpl; auto;
    destruct F; simpl; repeat (match goal with |- context [if ?b then _ else _] => destruct b end; simpl; auto). }
  induction ops as [|o ops IH]; simpl; intros s; auto.
  destruct (IH (fm_step up0 up1 s o)) as (A & B & C & D). destruct (S s o) as (A' & B' & C' & D').
  rewrite A, B, C, D. auto.
Qed.

Lemma nonadaptive_const : forall ops s, fm_adaptive s = false -> fm_run up0 up1 s ops = s.
Proof.
  induction ops as [|o ops IH]; simpl; intros s H; auto.
  assert (E : fm_step up0 up1 s o = s) by (destruct o; unfold fm_step, fm_up, fm_down; now rewrite H).
  rewrite E. auto.
Qed.

Lemma get_range : forall s u, FInv s -> unit_draw u ->
  nn (fm_get u s) /\ B2R (fm_lowest s) <= B2R (fm_get u s) <= B2R (fm_highest s).
Proof.
  intros s u I Hu. unfold FInv in I. destruct I as (_ & _ & _ & _ & _ & NL & NH & _ & _ & LH & _).
  unfold fm_get, fm_lowest, fm_highest in *. destruct (fm_F s) as [f|lo hi]; [split; [auto|lra]|].
  destruct NL as [FL PL]. destruct NH as [FH PH].
  destruct (fsub_key hi lo FH FL) as [N K].
  assert (D : isfin (fsub hi lo) = true).
  { apply fin_key; auto. rewrite K.
    assert (crnd (B2R hi - B2R lo) <= crnd (B2R hi)) by (apply crnd_mono; lra). rewrite crnd_B2R in H.
    assert (0 <= crnd (B2R hi - B2R lo)) by (apply crnd_ge0; lra). generalize (fin_bound hi) big_pos. lra. }
  destruct (funiform_range lo hi u FL FH D LH Hu) as [A B]. split; [split; [auto|lra]|auto].
Qed.

(** ** limited *)

Lemma fin_format : forall x : f64, generic_format radix2 fexp64 (B2R x).
Proof. intros x. apply generic_format_B2R. Qed.
Lemma bp_1072 : bpow radix2 (-1072) = 4 * bpow radix2 (-1074).
Proof. change (-1072)%Z with (2 + -1074)%Z. rewrite bpow_plus. reflexivity. Qed.
Lemma four_units : forall x : f64, 3 * bpow radix2 (-1074) < B2R x -> bpow radix2 (-1072) <= B2R x.
Proof.
  intros x H. destruct (format_units _ (fin_format x)) as [z E]. rewrite E in *. rewrite bp_1072.
  assert (P : 0 < bpow radix2 (-1074)) by apply bpow_gt_0.
  assert (3 < IZR z) by nra. apply (lt_IZR 3) in H0.
  apply Rmult_le_compat_r; [lra|]. apply (IZR_le 4). lia.
Qed.
Lemma one_unit : forall x : f64, 0 < B2R x -> bpow radix2 (-1074) <= B2R x.
Proof.
  intros x H. destruct (format_units _ (fin_format x)) as [z E]. rewrite E in *.
  assert (P : 0 < bpow radix2 (-1074)) by apply bpow_gt_0.
  assert (0 < IZR z) by nra. apply (lt_IZR 0) in H0. assert (1 <= IZR z) by (apply IZR_le; lia). nra.
Qed.
Lemma three_units : forall x, nn x -> 0 < B2R x -> 3 * bpow radix2 (-1074) <= key (fmul three x).
Proof.
  intros x Hx P. destruct three_val as [H3 E3]. destruct (mul_nn three x H3 Hx) as (N & K & _).
  rewrite K, E3. assert (U := one_unit x P).
  assert (G : crnd (3 * bpow radix2 (-1074)) = 3 * bpow radix2 (-1074)).
  { destruct (flit_val 3 (-1074)) as [A B]; [reflexivity|lia|]. rewrite <- B. apply crnd_B2R. }
  rewrite <- G. apply crnd_mono. lra.
Qed.
Lemma bp_27 : bpow radix2 (-1072) <= bpow radix2 (-27).
Proof. apply bpow_le. lia. Qed.

(** strict scaling away from the bottom of the float range *)
Lemma down_strict : forall (s x : f64), B2R s <= 0.895 -> 0 <= B2R s -> 
  bpow radix2 (-1072) <= B2R x -> (B2R s <= 0.8701 \/ bpow radix2 (-27) <= B2R x) ->
  rnd (B2R s * B2R x) < B2R x.
Proof.
  intros s x S S0 X Y. assert (P : 0 < bpow radix2 (-1072)) by apply bpow_gt_0.
  apply rnd_scale_down; try lra; [apply fin_format|].
  destruct Y as [Y|Y].
  - assert (U := ulp_quarter _ X). nra.
  - assert (U := ulp_quarter _ X).
    assert (S' : B2R s <= 0.895) by lra.
    (* ulp x <= x/8 once x >= 2^-1071 *)
    assert (U8 : 8 * ulp radix2 fexp64 (B2R x) <= B2R x).
    { set (v := B2R x) in *. assert (Pv : 0 < v) by (assert (0 < bpow radix2 (-27)) by apply bpow_gt_0; lra).
      rewrite ulp_neq_0 by lra. unfold cexp.
      assert (M := bpow_mag_le radix2 v (Rgt_not_eq _ _ Pv)). rewrite Rabs_pos_eq in M by lra.
      assert (Mg : (-26 <= mag radix2 v)%Z).
      { apply mag_ge_bpow. rewrite Rabs_pos_eq by lra. exact Y. }
      apply Rle_trans with (2 := M). change 8 with (bpow radix2 3). rewrite <- bpow_plus. apply bpow_le.
      unfold SpecFloat.fexp, SpecFloat.emin. lia. }
    nra.
Qed.

Definition smaller (s' s : fman) : Prop :=
  (B2R (fm_lowest s') < B2R (fm_lowest s) /\ B2R (fm_highest s') <= B2R (fm_highest s)) \/
  (B2R (fm_lowest s') <= B2R (fm_lowest s) /\ B2R (fm_highest s') < B2R (fm_highest s)).

Lemma smaller_F : forall s' s, smaller s' s -> fm_F s' <> fm_F s.
Proof. intros s' s H E. unfold smaller, fm_lowest, fm_highest in H. rewrite E in H. destruct (fm_F s); lra. Qed.

(** a down either sets [limited] and leaves F alone, or strictly reduces F *)
Lemma down_cases : forall s, FInv s -> fm_adaptive s = true ->
  fm_down s = set_limited s true \/ (smaller (fm_down s) s /\ fm_limited (fm_down s) = fm_limited s).
Proof.
  intros s I Ha. assert (P27 : 0 < bpow radix2 (-27)) by apply bpow_gt_0. assert (G27 := bp_27).
  unfold fm_down. rewrite Ha.
  destruct s as [cr F ad oL oH li]; unfold FInv in *; simpl in *.
  destruct I as (C1 & C2 & OL & OH & OO & NL & NH & L1 & H1 & LH & D & P).
  destruct F as [f|lo hi]; unfold smaller, fm_lowest, fm_highest, scale0, scale1, set_lowest, set_highest, set_limited in *; simpl in *.
  - subst oH. destruct (scale_down scaleLowest f nn_s0) as (S1 & S2 & S3); auto. { generalize s0_range; lra. }
    change scaleSingle with scaleLowest.
    destruct (fltb cr (fmul scaleLowest f)) eqn:E; simpl; [|now left].
    apply fltb_nn in E; auto.
    assert (E2 : fltb oL (fmul scaleLowest f) = false).
    { apply not_true_iff_false. intros X. apply fltb_nn in X; auto. lra. }
    rewrite E2. right. split; auto. left. split; [|lra]. rewrite S2. assert (S0 := s0_range). apply down_strict; solve [lra|right; lra].
  - destruct (scale_down scaleLowest lo nn_s0) as (S1 & S2 & S3); auto. { generalize s0_range; lra. }
    destruct (fltb cr (fmul scaleLowest lo)) eqn:E; simpl.
    + apply fltb_nn in E; auto.
      assert (E2 : fltb oL (fmul scaleLowest lo) = false).
      { apply not_true_iff_false. intros X. apply fltb_nn in X; auto. lra. }
      rewrite E2. right. split; auto. left. split; [|lra]. rewrite S2. assert (S0 := s0_range). apply down_strict; solve [lra|right; lra].
    + destruct (scale_down scaleHighest hi nn_s1) as (T1 & T2 & T3); auto. { generalize s1_range; lra. }
      destruct (fltb (fmul three lo) (fmul scaleHighest hi)) eqn:E'; simpl; [|now left].
      apply fltb_spec in E'. destruct E' as (_ & _ & E'). rewrite (nn_key _ T1) in E'.
      assert (E2 : fltb oH (fmul scaleHighest hi) = false).
      { apply not_true_iff_false. intros X. apply fltb_nn in X; auto. lra. }
      rewrite E2. right. split; auto. right. split; [lra|]. rewrite T2.
      assert (T := three_units lo NL (proj2 P)).
      assert (Q1 := s1_range). assert (Q4 : bpow radix2 (-1072) <= B2R hi) by (apply four_units; lra).
      apply down_strict; solve [lra|left; lra].
Qed.

(** [limited] is only ever true in states where down() is stuck *)
Definition LInv (s : fman) : Prop := fm_limited s = true -> fm_adaptive s = true /\ fm_down s = s.

Lemma LInv_down : forall s, FInv s -> LInv s -> LInv (fm_down s).
Proof.
  intros s I J. destruct (fm_adaptive s) eqn:Ha.
  - destruct (down_cases s I Ha) as [E|[S E]].
    + intros _. rewrite E. split; auto.
      assert (E2 : forall b, fm_down (set_limited s b) = set_limited (fm_down s) (fm_limited (fm_down (set_limited s b)))).
      { intros b. unfold fm_down, set_limited, set_lowest, set_highest, fm_lowest, fm_highest, scale0, scale1; simpl. rewrite Ha. simpl.
        destruct (fm_F s); simpl; repeat (match goal with |- context [if ?b then _ else _] => destruct b end; simpl; auto). }
      rewrite E2, E.
      assert (E3 : fm_limited (fm_down (set_limited s true)) = true).
      { unfold fm_down, set_limited, set_lowest, set_highest, fm_lowest, fm_highest, scale0, scale1; simpl. rewrite Ha. simpl.
        destruct (fm_F s); simpl; repeat (match goal with |- context [if ?b then _ else _] => destruct b end; simpl; auto). }
      now rewrite E3.
    + intros L. rewrite E in L. destruct (J L) as [_ K]. rewrite K in S. exfalso. now apply (smaller_F _ _ S).
  - assert (E : fm_down s = s) by (unfold fm_down; now rewrite Ha). now rewrite E.
Qed.
Lemma up_clears : forall s, fm_adaptive s = true -> fm_limited (fm_up up0 up1 s) = false.
Proof.
  intros s Ha. unfold fm_up, set_limited, set_lowest, set_highest, fm_lowest, fm_highest. rewrite Ha. simpl.
  destruct (fm_F s); simpl; repeat (match goal with |- context [if ?b then _ else _] => destruct b end; simpl; auto).
Qed.
Lemma LInv_up : forall s, LInv s -> LInv (fm_up up0 up1 s).
Proof.
  intros s J. destruct (fm_adaptive s) eqn:Ha.
  - intros L. now rewrite up_clears in L.
  - assert (E : fm_up up0 up1 s = s) by (unfold fm_up; now rewrite Ha). now rewrite E.
Qed.
Lemma LInv_run : forall ops s, FInv s -> LInv s -> LInv (fm_run up0 up1 s ops).
Proof.
  induction ops as [|[|] ops IH]; simpl; intros s I J; auto.
  - apply IH. now apply FInv_up. now apply LInv_up.
  - apply IH. now apply FInv_down. now apply LInv_down.
Qed.
Lemma LInv_init : forall F CR Np ad, LInv (fm_init F CR Np ad).
Proof. intros F CR Np ad H. unfold fm_init in H. destruct F as [f|lo hi]; [discriminate|]. destruct (feqb lo fzero); discriminate. Qed.

Lemma limited_iff : forall s, FInv s -> LInv s -> fm_adaptive s = true ->
  (fm_limited (fm_down s) = true <-> fm_F (fm_down s) = fm_F s).
Proof.
  intros s I J Ha. destruct (down_cases s I Ha) as [E|[S E]].
  - rewrite E. simpl. tauto.
  - split; intros H.
    + rewrite E in H. destruct (J H) as [_ K]. rewrite K. auto.
    + exfalso. exact (smaller_F _ _ S H).
Qed.

(** ** termination of down *)
Lemma units2 : forall x y : f64, exists z, B2R x + B2R y = IZR z * bpow radix2 (-1074).
Proof.
  intros x y. destruct (format_units _ (fin_format x)) as [a A]. destruct (format_units _ (fin_format y)) as [b B].
  exists (a + b)%Z. rewrite A, B, plus_IZR. ring.
Qed.

Lemma run_app : forall a b s, fm_run up0 up1 s (a ++ b) = fm_run up0 up1 (fm_run up0 up1 s a) b.
Proof. intros. unfold fm_run. apply fold_left_app. Qed.

Lemma stuck_forever : forall s n, fm_down s = s -> fm_run up0 up1 s (repeat Down n) = s.
Proof. intros s n H. induction n as [|n IH]; simpl; auto. unfold fm_run in *; simpl. rewrite H. apply IH. Qed.

Lemma down_terminates : forall s, FInv s -> LInv s -> fm_adaptive s = true ->
  exists n, forall m, (n <= m)%nat -> fm_limited (fm_run up0 up1 s (repeat Down m)) = true.
Proof.
  assert (Q : 0 < bpow radix2 (-1074)) by apply bpow_gt_0.
  assert (G : forall k s, FInv s -> LInv s -> fm_adaptive s = true ->
     B2R (fm_lowest s) + B2R (fm_highest s) < INR k * bpow radix2 (-1074) ->
     exists n, forall m, (n <= m)%nat -> fm_limited (fm_run up0 up1 s (repeat Down m)) = true).
  { induction k as [|k IH]; intros s I J Ha Hk.
    { exfalso. simpl in Hk. unfold FInv in I. destruct I as (_&_&_&_&_&(_&A)&(_&B)&_). lra. }
    assert (I' := FInv_down s I). assert (J' := LInv_down s I J).
    destruct (down_cases s I Ha) as [E|[S E]].
    - exists 1%nat. intros [|m] Hm; [lia|]. cbn [repeat]. change (Down :: repeat Down m) with ([Down] ++ repeat Down m).
      rewrite run_app. change (fm_run up0 up1 s [Down]) with (fm_down s).
      destruct (J' ltac:(now rewrite E)) as [_ K]. rewrite stuck_forever by auto. now rewrite E.
    - destruct (IH (fm_down s) I' J') as [n Hn].
      + destruct (run_const [Down] s) as (_ & _ & _ & R). exact (eq_trans R Ha).
      + destruct (units2 (fm_lowest s) (fm_highest s)) as [z Z1].
        destruct (units2 (fm_lowest (fm_down s)) (fm_highest (fm_down s))) as [z' Z2].
        assert (L : B2R (fm_lowest (fm_down s)) + B2R (fm_highest (fm_down s)) < B2R (fm_lowest s) + B2R (fm_highest s)).
        { unfold smaller in S. lra. }
        rewrite Z1 in *. rewrite Z2 in *. rewrite INR_IZR_INZ in *.
        apply Rmult_lt_reg_r in L; auto. apply Rmult_lt_reg_r in Hk; auto. apply lt_IZR in L, Hk.
        apply Rmult_lt_compat_r; auto. apply IZR_lt. lia.
      + exists (Datatypes.S n). intros [|m] Hm; [lia|]. cbn [repeat]. change (Down :: repeat Down m) with ([Down] ++ repeat Down m).
        rewrite run_app. apply Hn. lia. }
  intros s I J Ha. destruct (units2 (fm_lowest s) (fm_highest s)) as [z Z1].
  apply (G (Z.to_nat (Z.abs z + 1)) s I J Ha). rewrite Z1. rewrite INR_IZR_INZ. apply Rmult_lt_compat_r; auto. apply IZR_lt. lia.
Qed.

(** ** termination of up *)
Definition origF (s : fman) : Fval := match fm_F s with FSingle _ => FSingle (fm_origL s) | FPair _ _ => FPair (fm_origL s) (fm_origH s) end.

Lemma up_strict : forall (c x : f64), 1.125 < B2R c \/ 1.0625 < B2R c /\ bpow radix2 (-27) <= B2R x ->
  bpow radix2 (-1072) <= B2R x -> B2R x < rnd (B2R c * B2R x).
Proof.
  intros c x C X. assert (P : 0 < bpow radix2 (-1072)) by apply bpow_gt_0.
  apply rnd_scale_up; try lra; [apply fin_format|].
  destruct C as [C|[C Y]].
  - assert (U := ulp_quarter _ X). nra.
  - assert (U8 : 8 * ulp radix2 fexp64 (B2R x) <= B2R x).
    { set (v := B2R x) in *. assert (Pv : 0 < v) by (assert (0 < bpow radix2 (-27)) by apply bpow_gt_0; lra).
      rewrite ulp_neq_0 by lra. unfold cexp.
      assert (M := bpow_mag_le radix2 v (Rgt_not_eq _ _ Pv)). rewrite Rabs_pos_eq in M by lra.
      assert (Mg : (-26 <= mag radix2 v)%Z).
      { apply mag_ge_bpow. rewrite Rabs_pos_eq by lra. exact Y. }
      apply Rle_trans with (2 := M). change 8 with (bpow radix2 3). rewrite <- bpow_plus. apply bpow_le.
      unfold SpecFloat.fexp, SpecFloat.emin. lia. }
    nra.
Qed.

Lemma up_cases : forall s, FInv s -> fm_adaptive s = true ->
  origF (fm_up up0 up1 s) = origF s /\
  (smaller s (fm_up up0 up1 s) \/ (fm_F (fm_up up0 up1 s) = origF s /\ fm_F s = origF s)).
Proof.
  intros s I Ha. assert (P27 : 0 < bpow radix2 (-27)) by apply bpow_gt_0. assert (G27 := bp_27).
  destruct (up0_val _ U0) as [V0 W0]. destruct (up1_val _ U1) as [V1 W1].
  unfold fm_up. rewrite Ha.
  destruct s as [cr F ad oL oH li]; unfold FInv in *; simpl in *.
  destruct I as (C1 & C2 & OL & OH & OO & NL & NH & L1 & H1 & LH & D & P).
  assert (eqf : forall x y, nn x -> nn y -> 0 < B2R x -> B2R x = B2R y -> x = y).
  { intros x y Hx Hy Hp He. apply key_inj; auto using nn_nan; rewrite ?nn_key by easy; lra. }
  destruct F as [f|lo hi]; unfold origF, smaller, fm_lowest, fm_highest, set_lowest, set_highest, set_limited in *; simpl in *.
  - subst oH. destruct (fltb f oL) eqn:E; simpl.
    + split; auto. apply fltb_nn in E; auto. left.
      destruct (scale_up up0 f oL) as (S1 & S2 & S3 & S4); auto; [lra|]. rewrite S3.
      destruct D as [->|D]; [lra|]. left. split; [|lra].
      destruct S4 as [->|S4]; [lra|]. rewrite S4. apply up_strict; [right; lra|lra].
    + split; auto. right. apply fltb_nn_false in E; auto.
      destruct D as [->|D]; [auto|]. split; f_equal; apply eqf; auto; lra.
  - destruct P as [P P0]. destruct (fltb hi oH) eqn:E; simpl.
    + split; auto. apply fltb_nn in E; auto. left.
      destruct (scale_up up1 hi oH) as (S1 & S2 & S3 & S4); auto; [lra|]. rewrite S3.
      right. split; [lra|]. destruct P as [->|P]; [lra|].
      destruct S4 as [->|S4]; [lra|]. rewrite S4. assert (T := three_units lo NL P0).
      apply up_strict; [now left|]. apply four_units. lra.
    + apply fltb_nn_false in E; auto.
      assert (EH : hi = oH) by (apply eqf; auto; lra). subst hi.
      destruct (fltb lo oL) eqn:E2; simpl.
      * split; auto. apply fltb_nn in E2; auto. left.
        destruct (scale_up up0 lo oL) as (S1 & S2 & S3 & S4); auto; [lra|]. rewrite S3.
        destruct D as [->|D]; [lra|]. left. split; [|lra].
        destruct S4 as [->|S4]; [lra|]. rewrite S4. apply up_strict; [right; lra|lra].
      * split; auto. right. apply fltb_nn_false in E2; auto.
        destruct D as [->|D]; [auto|]. split; f_equal; apply eqf; auto; lra.
Qed.

Lemma up_terminates : forall s, FInv s -> fm_adaptive s = true ->
  exists n, forall m, (n <= m)%nat -> fm_F (fm_run up0 up1 s (repeat Up m)) = origF s.
Proof.
  assert (Q : 0 < bpow radix2 (-1074)) by apply bpow_gt_0.
  assert (G : forall k s, FInv s -> fm_adaptive s = true ->
     B2R (fm_origL s) + B2R (fm_origH s) - (B2R (fm_lowest s) + B2R (fm_highest s)) < INR k * bpow radix2 (-1074) ->
     exists n, forall m, (n <= m)%nat -> fm_F (fm_run up0 up1 s (repeat Up m)) = origF s).
  { induction k as [|k IH]; intros s I Ha Hk.
    { exfalso. simpl in Hk. unfold FInv in I. decompose [and] I. lra. }
    assert (I' := FInv_up up0 up1 s U0 U1 I).
    destruct (run_const [Up] s) as (_ & RL & RH & RA).
    change (fm_run up0 up1 s [Up]) with (fm_up up0 up1 s) in *.
    destruct (up_cases s I Ha) as [O [S|[E E']]].
    - destruct (IH (fm_up up0 up1 s) I') as [n Hn].
      + congruence.
      + rewrite RL, RH.
        destruct (units2 (fm_origL s) (fm_origH s)) as [o Z0].
        destruct (units2 (fm_lowest s) (fm_highest s)) as [z Z1].
        destruct (units2 (fm_lowest (fm_up up0 up1 s)) (fm_highest (fm_up up0 up1 s))) as [z' Z2].
        assert (L : B2R (fm_lowest s) + B2R (fm_highest s) < B2R (fm_lowest (fm_up up0 up1 s)) + B2R (fm_highest (fm_up up0 up1 s))).
        { unfold smaller in S. lra. }
        rewrite Z0, Z1 in *. rewrite Z2 in *. rewrite INR_IZR_INZ in *.
        rewrite <- Rmult_minus_distr_r, <- minus_IZR in *.
        apply Rmult_lt_reg_r in L; auto. apply Rmult_lt_reg_r in Hk; auto. apply lt_IZR in L, Hk.
        apply Rmult_lt_compat_r; auto. apply IZR_lt. lia.
      + exists (Datatypes.S n). intros [|m] Hm; [lia|]. cbn [repeat]. change (Up :: repeat Up m) with ([Up] ++ repeat Up m).
        rewrite run_app. rewrite <- O. apply Hn. lia.
    - clear IH Hk. exists 0%nat. intros m _. 
      assert (X : forall m s, FInv s -> fm_adaptive s = true -> fm_F s = origF s -> fm_F (fm_run up0 up1 s (repeat Up m)) = origF s).
      { clear - U0 U1. induction m as [|m IH]; intros s I Ha E; auto.
        cbn [repeat]. change (Up :: repeat Up m) with ([Up] ++ repeat Up m). rewrite run_app.
        destruct (run_const [Up] s) as (_ & RL & RH & RA).
        change (fm_run up0 up1 s [Up]) with (fm_up up0 up1 s) in *.
        destruct (up_cases s I Ha) as [O _]. rewrite <- O. apply IH; [now apply FInv_up|congruence|].
        rewrite O. unfold fm_up. rewrite Ha. rewrite <- E.
        assert (EL : fltb (fm_lowest s) (fm_origL s) = false /\ (fm_origH s = fm_origH s -> match fm_F s with FPair _ h => fltb h (fm_origH s) = false | _ => True end)).
        { unfold fm_lowest. unfold origF in E. destruct (fm_F s) as [f|lo hi].
          - assert (f = fm_origL s) as -> by congruence. split; auto. apply fltb_irrefl.
          - assert (lo = fm_origL s) as -> by congruence. assert (hi = fm_origH s) as -> by congruence.
            split; intros; apply fltb_irrefl. }
        destruct EL as [E1 E2]. specialize (E2 eq_refl). unfold set_limited, fm_lowest in *; simpl in *.
        destruct (fm_F s) as [f|lo hi]; simpl; rewrite ?E2; simpl; now rewrite E1. }
      now apply X. }
  intros s I Ha. destruct (units2 (fm_origL s) (fm_origH s)) as [o Z0].
  destruct (units2 (fm_lowest s) (fm_highest s)) as [z Z1].
  apply (G (Z.to_nat (Z.abs (o - z) + 1)) s I Ha). rewrite Z0, Z1. rewrite INR_IZR_INZ.
  rewrite <- Rmult_minus_distr_r, <- minus_IZR. apply Rmult_lt_compat_r; auto. apply IZR_lt. lia.
Qed.
End Reach.
