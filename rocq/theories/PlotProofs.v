(** * Lemmas for the scatter plots: binary32 quotients, slices. *)
From Coq Require Import Reals String Ascii List Bool Arith ZArith Lia Lra.
From Flocq Require Import Core BinarySingleNaN Relative.
From Verif Require Import Flt FltMore Py RankModel AnalModel AnalRange VsModel PlotModel.
Import ListNotations.
Local Open Scope R_scope.
#[local] Arguments fltb : simpl never.
#[local] Arguments fleb : simpl never.
#[local] Arguments feqb : simpl never.
#[local] Arguments fadd : simpl never.
#[local] Arguments fmul : simpl never.
#[local] Arguments fdiv : simpl never.
#[local] Arguments rnd32 : simpl never.
#[local] Arguments fofZ : simpl never.

(** ** min *)
Lemma fmin2_spec a b : isnan a = false -> isnan b = false ->
  isnan (fmin2 a b) = false /\ (fmin2 a b = a \/ fmin2 a b = b) /\ fleb (fmin2 a b) a = true /\ fleb (fmin2 a b) b = true.
Proof.
  intros A B. unfold fmin2. rewrite A, B. destruct (fltb b a) eqn:E.
  - repeat split; auto; [now apply fltb_fleb|now apply fleb_refl].
  - repeat split; auto; [now apply fleb_refl|]. apply fleb_spec. repeat split; auto. now apply fltb_false.
Qed.
Lemma np_min_spec l : l <> [] -> Forall (fun x => isnan x = false) l ->
  exists m, np_min l = Ok m /\ In m l /\ Forall (fun x => fleb m x = true) l.
Proof.
  destruct l as [|x l]; [congruence|]. intros _ F. unfold np_min. eexists. split; [reflexivity|]. inversion F as [|? ? X Fl]; subst. clear F.
  revert x X. induction l as [|y l IH]; intros x X; cbn [fold_left].
  - split; [left; auto|]. repeat constructor. now apply fleb_refl.
  - inversion Fl as [|? ? Y Fl']; subst. destruct (fmin2_spec x y X Y) as (N & O & L1 & L2). destruct (IH Fl' (fmin2 x y) N) as (I & G).
    set (m := fold_left fmin2 l (fmin2 x y)) in *. inversion G as [|? ? G1 G2]; subst. split.
    + destruct I as [I|I]; [destruct O as [O|O]; rewrite O in I; simpl; auto|simpl; auto].
    + constructor; [eapply fleb_trans; eauto|]. constructor; [eapply fleb_trans; eauto|exact G2].
Qed.

(** ** The weights *)
Lemma rnd32_fin x : isfin (rnd32 x) = true -> isfin x = true.
Proof. destruct x as [s|s| |s m e H]; intros E; try reflexivity; [destruct s|]; vm_compute in E; discriminate. Qed.
Lemma rnd32_key_eq x y : isnan x = false -> isnan y = false -> key x = key y -> key (rnd32 x) = key (rnd32 y).
Proof.
  intros A B E. assert (L1 : fleb x y = true) by (apply fleb_spec; repeat split; auto; lra). assert (L2 : fleb y x = true) by (apply fleb_spec; repeat split; auto; lra).
  apply rnd32_mono in L1, L2. apply fleb_spec in L1 as (_ & _ & L1). apply fleb_spec in L2 as (_ & _ & L2). lra.
Qed.
(** an SSE of a history that the weights can be computed with *)
Definition pos32 (x : f64) : Prop := isfin x = true /\ fltb fzero x = true /\ b32 x.
Lemma pos32_R x : pos32 x -> 0 < B2R x /\ key x = B2R x /\ isnan x = false.
Proof. intros (F & P & _). apply fltb_spec in P as (_ & N & P). rewrite key_fzero, key_fin in P by auto. repeat split; auto. now apply key_fin. Qed.
Lemma two_val : isfin (fofZ 2) = true /\ B2R (fofZ 2) = 2.
Proof. apply (fofZ_val 2). reflexivity. Qed.

(** numerator and denominator *)
Lemma w_num m : pos32 m -> isfin (rnd32 (fmul (fofZ 2) m)) = true ->
  0 < B2R (rnd32 (fmul (fofZ 2) m)) /\ key (rnd32 (fmul (fofZ 2) m)) = B2R (rnd32 (fmul (fofZ 2) m)).
Proof.
  intros P F. split; [|now apply key_fin]. destruct (pos32_R m P) as (M & K & N). destruct P as (Fm & _ & B). destruct two_val as [F2 V2].
  destruct (fmul_key (fofZ 2) m F2 Fm) as [N2 K2]. rewrite V2 in K2.
  assert (L : fleb m (fmul (fofZ 2) m) = true). { apply fleb_spec. repeat split; auto. rewrite K2, K. rewrite <- (crnd_B2R m) at 1. apply crnd_mono. lra. }
  apply rnd32_mono in L. apply fleb_spec in L as (_ & _ & L). apply feqb_spec in B as (_ & _ & B). rewrite B, K, (key_fin _ F) in L. lra.
Qed.
Lemma w_den m s : pos32 m -> pos32 s -> fleb m s = true -> isfin (rnd32 (fmul (fofZ 2) m)) = true ->
  isnan (rnd32 (fadd s m)) = false /\ key (rnd32 (fmul (fofZ 2) m)) <= key (rnd32 (fadd s m)).
Proof.
  intros P Q L F. destruct (pos32_R m P) as (M & K & N). destruct (pos32_R s Q) as (S & K' & N'). destruct P as (Fm & _ & _). destruct Q as (Fs & _ & _).
  destruct two_val as [F2 V2]. destruct (fmul_key (fofZ 2) m F2 Fm) as [N2 K2]. rewrite V2 in K2. destruct (fadd_key s m Fs Fm) as [Na Ka].
  split; [now rewrite rnd32_nan|]. apply fleb_spec in L as (_ & _ & L). rewrite K, K' in L.
  assert (E : fleb (fmul (fofZ 2) m) (fadd s m) = true). { apply fleb_spec. repeat split; auto. rewrite K2, Ka. apply crnd_mono. lra. }
  apply rnd32_mono in E. now apply fleb_spec in E as (_ & _ & E).
Qed.
Lemma w_den_mono m s t : pos32 m -> pos32 s -> pos32 t -> fleb s t = true -> key (rnd32 (fadd s m)) <= key (rnd32 (fadd t m)).
Proof.
  intros P Q T L. destruct (pos32_R s Q) as (S & K' & N'). destruct (pos32_R t T) as (S2 & K2 & N2). destruct P as (Fm & _). destruct Q as (Fs & _ & _). destruct T as (Ft & _).
  destruct (fadd_key s m Fs Fm) as [Na Ka]. destruct (fadd_key t m Ft Fm) as [Nt Kt]. apply fleb_spec in L as (_ & _ & L). rewrite K', K2 in L.
  assert (E : fleb (fadd s m) (fadd t m) = true). { apply fleb_spec. repeat split; auto. rewrite Ka, Kt. apply crnd_mono. lra. }
  apply rnd32_mono in E. now apply fleb_spec in E as (_ & _ & E).
Qed.
(** a positive finite number divided by a positive one or infinity *)
Definition quot (a d : f64) : R := if isfin d then crnd (B2R a / B2R d) else 0.
Lemma fdiv_quot a d : isfin a = true -> 0 < B2R a -> isnan d = false -> 0 < key d -> isnan (fdiv a d) = false /\ key (fdiv a d) = quot a d.
Proof.
  intros F A N D. unfold quot. destruct (isfin d) eqn:Fd.
  - rewrite key_fin in D by auto. apply fdiv_key; auto. lra.
  - destruct d as [s|[|]| |s m e H]; try discriminate.
    + exfalso. simpl in D. assert (b := big_pos). lra.
    + destruct a as [s|s| |s m e H]; try discriminate; split; reflexivity.
Qed.
Lemma quot_mono a d e : isfin a = true -> 0 < B2R a -> 0 < key d -> isnan d = false -> isnan e = false -> key d <= key e -> quot a e <= quot a d.
Proof.
  intros F A D Nd Ne L. unfold quot. assert (bp := big_pos). destruct (isfin e) eqn:Fe.
  - rewrite (key_fin e) in L by auto. assert (X := fin_bound e). destruct (isfin d) eqn:Fd.
    + rewrite key_fin in D, L by auto. apply crnd_mono. unfold Rdiv. apply Rmult_le_compat_l; [lra|]. apply Rinv_le; lra.
    + destruct d as [s|[|]| |s m0 e0 H]; try discriminate; simpl in D, L; lra.
  - destruct (isfin d) eqn:Fd; [|lra]. rewrite key_fin in D by auto. apply crnd_ge0. unfold Rdiv. apply Rmult_le_pos; [lra|]. apply Rlt_le, Rinv_0_lt_compat, D.
Qed.

Lemma weight_spec m s : pos32 m -> pos32 s -> fleb m s = true -> isfin (rnd32 (fmul (fofZ 2) m)) = true ->
  isnan (weight m s) = false /\ fleb fzero (weight m s) = true /\ fleb (weight m s) fone = true.
Proof.
  intros P Q L F. destruct (w_num m P F) as (A & Ka). destruct (w_den m s P Q L F) as (Nd & Ld). unfold weight.
  set (a := rnd32 (fmul (fofZ 2) m)) in *. set (d := rnd32 (fadd s m)) in *.
  destruct (fdiv_quot a d F A Nd ltac:(lra)) as (Nq & Kq).
  assert (Q0 : 0 <= key (fdiv a d) <= 1).
  { rewrite Kq. unfold quot. destruct (isfin d) eqn:Fd; [|lra]. rewrite Ka, (key_fin d Fd) in Ld. split.
    - apply crnd_ge0. unfold Rdiv. apply Rmult_le_pos; [lra|]. apply Rlt_le, Rinv_0_lt_compat. lra.
    - rewrite <- crnd_1. apply crnd_mono. apply Rmult_le_reg_r with (B2R d); [lra|]. unfold Rdiv. rewrite Rmult_assoc, Rinv_l by lra. lra. }
  assert (L0 : fleb fzero (fdiv a d) = true). { apply fleb_spec. repeat split; auto. rewrite key_fzero. lra. }
  assert (L1 : fleb (fdiv a d) fone = true). { apply fleb_spec. repeat split; auto. rewrite key_fone. lra. }
  apply rnd32_mono in L0, L1. split; [now rewrite rnd32_nan|]. split.
  - eapply fleb_trans; [|exact L0]. vm_compute. reflexivity.
  - eapply fleb_trans; [exact L1|]. vm_compute. reflexivity.
Qed.
Lemma weight_mono m s t : pos32 m -> pos32 s -> pos32 t -> fleb m s = true -> fleb s t = true -> isfin (rnd32 (fmul (fofZ 2) m)) = true ->
  fleb (weight m t) (weight m s) = true.
Proof.
  intros P Q T L L' F. assert (Lt := fleb_trans _ _ _ L L'). destruct (w_num m P F) as (A & Ka). destruct (w_den m s P Q L F) as (Nd & Ld). destruct (w_den m t P T Lt F) as (Ne & Le).
  assert (M := w_den_mono m s t P Q T L'). unfold weight. apply rnd32_mono. apply fleb_spec.
  set (a := rnd32 (fmul (fofZ 2) m)) in *. set (d := rnd32 (fadd s m)) in *. set (e := rnd32 (fadd t m)) in *.
  destruct (fdiv_quot a d F A Nd ltac:(lra)) as (Nq & Kq). destruct (fdiv_quot a e F A Ne ltac:(lra)) as (Nr & Kr). repeat split; auto. rewrite Kq, Kr.
  apply quot_mono; auto. lra.
Qed.
Lemma weight_best m : pos32 m -> isfin (rnd32 (fmul (fofZ 2) m)) = true -> feqb (weight m m) fone = true.
Proof.
  intros P F. destruct (w_num m P F) as (A & Ka). destruct (pos32_R m P) as (M & K & N). assert (P' := P). destruct P' as (Fm & _ & _).
  destruct two_val as [F2 V2]. destruct (fmul_key (fofZ 2) m F2 Fm) as [N2 K2]. rewrite V2 in K2. destruct (fadd_key m m Fm Fm) as [Na Kd].
  assert (E : key (rnd32 (fadd m m)) = key (rnd32 (fmul (fofZ 2) m))). { apply rnd32_key_eq; auto. rewrite K2, Kd. f_equal. lra. }
  unfold weight. set (a := rnd32 (fmul (fofZ 2) m)) in *. set (d := rnd32 (fadd m m)) in *.
  assert (Nd : isnan d = false) by (unfold d; now rewrite rnd32_nan).
  assert (Fd : isfin d = true). { apply fin_key; auto. rewrite E, Ka. apply fin_bound. }
  rewrite (key_fin d Fd), Ka in E. destruct (fdiv_key a d F Fd ltac:(lra)) as (Nq & Kq). rewrite E in Kq. unfold Rdiv in Kq. rewrite Rinv_r, crnd_1 in Kq by lra.
  assert (KK : key (rnd32 (fdiv a d)) = key (rnd32 fone)). { apply rnd32_key_eq; auto. rewrite Kq, key_fone. reflexivity. }
  apply feqb_spec. split; [now rewrite rnd32_nan|]. split; [reflexivity|]. rewrite KK. vm_compute (rnd32 fone). reflexivity.
Qed.

(** accuracy: two roundings of a number in the normal range *)
Lemma fexp32_eq : SpecFloat.fexp 24 128 = FLT_exp (-149) 24. Proof. reflexivity. Qed.
Lemma bpow_r32 e : (-126 <= e <= 127)%Z -> r32 (bpow radix2 e) = bpow radix2 e.
Proof. intros L. unfold r32. apply round_generic; auto with typeclass_instances. rewrite fexp32_eq. apply generic_format_FLT_bpow; [reflexivity|lia]. Qed.
Lemma two_round v x : isfin v = true -> B2R v = crnd x -> bpow radix2 (-126) <= x <= bpow radix2 127 ->
  isfin (rnd32 v) = true /\ Rabs (B2R (rnd32 v) - x) <= bpow radix2 (-23) * x.
Proof.
  intros F E [L U]. assert (C : crnd x = rnd x). { apply crnd_rnd. rewrite <- E. apply fin_bound. } rewrite C in E.
  assert (b126 : 0 < bpow radix2 (-126)) by apply bpow_gt_0.
  assert (Lv : bpow radix2 (-126) <= B2R v). { rewrite E, <- (crnd_bpow (-126)) by lia. rewrite <- C. now apply crnd_mono. }
  assert (Uv : B2R v <= bpow radix2 127). { rewrite E, <- (crnd_bpow 127) by lia. rewrite <- C. now apply crnd_mono. }
  assert (Lr := r32_mono _ _ Lv). assert (Ur := r32_mono _ _ Uv). rewrite bpow_r32 in Lr, Ur by lia.
  assert (K := rnd32_key v F). assert (b1 : bpow radix2 127 < big32) by (apply bpow_lt; lia).
  unfold clamp32 in K. rewrite Rlt_bool_true in K by (rewrite Rabs_pos_eq; lra).
  assert (b2 : bpow radix2 127 < big) by (apply bpow_lt; lia).
  assert (Fr : isfin (rnd32 v) = true). { apply fin_key; [rewrite rnd32_nan; now apply nan_fin|]. rewrite K. lra. }
  split; [exact Fr|]. rewrite key_fin in K by exact Fr. rewrite K.
  assert (E1 : Rabs (B2R v - x) <= / 2 * bpow radix2 (-53 + 1) * Rabs x).
  { rewrite E. unfold rnd. fold fexp64. rewrite fexp64_eq. apply relative_error_N_FLT; [reflexivity|]. rewrite Rabs_pos_eq by lra. eapply Rle_trans; [|exact L]. apply bpow_le. lia. }
  assert (E2 : Rabs (r32 (B2R v) - B2R v) <= / 2 * bpow radix2 (-24 + 1) * Rabs (B2R v)).
  { unfold r32. rewrite fexp32_eq. apply relative_error_N_FLT; [reflexivity|]. rewrite Rabs_pos_eq by lra. exact Lv. }
  rewrite (Rabs_pos_eq x) in E1 by lra. rewrite (Rabs_pos_eq (B2R v)) in E2 by lra.
  change (-53 + 1)%Z with (-52)%Z in E1. change (-24 + 1)%Z with (-23)%Z in E2.
  assert (b52 : bpow radix2 (-52) <= / 8). { replace (/ 8) with (bpow radix2 (-3)) by (simpl; lra). apply bpow_le. lia. }
  assert (b52' : bpow radix2 (-52) <= / 8 * bpow radix2 (-23)). { replace (/ 8) with (bpow radix2 (-3)) by (simpl; lra). rewrite <- bpow_plus. apply bpow_le. lia. }
  assert (b0 : 0 < bpow radix2 (-52)) by apply bpow_gt_0. assert (b23 : 0 < bpow radix2 (-23)) by apply bpow_gt_0.
  set (u := bpow radix2 (-52)) in *. set (w := bpow radix2 (-23)) in *. clearbody u w.
  apply Rabs_le_inv in E1. apply Rabs_le_inv in E2.
  assert (X1 : B2R v <= 9 / 8 * x) by nra.
  apply Rabs_le. split; nra.
Qed.
Lemma weight_value m s : pos32 m -> pos32 s -> fleb m s = true ->
  let q := 2 * B2R m / (B2R s + B2R m) in
  bpow radix2 (-126) <= 2 * B2R m -> B2R s + B2R m <= bpow radix2 127 -> bpow radix2 (-125) <= q ->
  isfin (weight m s) = true /\ Rabs (B2R (weight m s) - q) <= bpow radix2 (-21) * q.
Proof.
  intros P Q L q Lm Us Lq. destruct (pos32_R m P) as (M & K & N). destruct (pos32_R s Q) as (S & K' & N').
  assert (Fm := proj1 P). assert (Fs := proj1 Q). destruct two_val as [F2 V2]. destruct (fmul_key (fofZ 2) m F2 Fm) as [N2 K2]. rewrite V2 in K2. destruct (fadd_key s m Fs Fm) as [Na Ka].
  assert (Lms : B2R m <= B2R s). { apply fleb_spec in L as (_ & _ & L). lra. }
  assert (b127 : bpow radix2 127 < big) by (apply bpow_lt; lia). assert (bp := big_pos). assert (b126 : 0 < bpow radix2 (-126)) by apply bpow_gt_0.
  assert (FF : forall v x, isnan v = false -> key v = crnd x -> bpow radix2 (-126) <= x <= bpow radix2 127 -> isfin v = true /\ B2R v = crnd x).
  { intros v x Nv Kv [X1 X2]. assert (C := crnd_mono _ _ X2). rewrite crnd_bpow in C by lia. assert (C' := crnd_ge0 x ltac:(lra)).
    assert (F : isfin v = true) by (apply fin_key; auto; rewrite Kv; lra). split; auto. now rewrite <- key_fin. }
  destruct (FF _ _ N2 K2 ltac:(lra)) as (Fa & Va). destruct (FF _ _ Na Ka ltac:(lra)) as (Fd & Vd).
  destruct (two_round _ _ Fa Va ltac:(lra)) as (Fra & Ea). destruct (two_round _ _ Fd Vd ltac:(lra)) as (Frd & Ed).
  unfold weight. set (a := rnd32 (fmul (fofZ 2) m)) in *. set (d := rnd32 (fadd s m)) in *.
  set (w := bpow radix2 (-23)) in *. assert (w0 : 0 < w) by apply bpow_gt_0. assert (w1 : w <= / 1024). { replace (/ 1024) with (bpow radix2 (-10)) by (simpl; lra). apply bpow_le. lia. }
  assert (W4 : bpow radix2 (-21) = 4 * w). { unfold w. replace 4 with (bpow radix2 2) by (simpl; lra). rewrite <- bpow_plus. reflexivity. }
  assert (Q2 : bpow radix2 (-125) = 2 * bpow radix2 (-126)). { replace 2 with (bpow radix2 1) by (simpl; lra). rewrite <- bpow_plus. reflexivity. }
  apply Rabs_le_inv in Ea. apply Rabs_le_inv in Ed. set (D := B2R s + B2R m) in *. assert (D0 : 0 < D) by (unfold D; lra).
  assert (qD : q * D = 2 * B2R m) by (unfold q, Rdiv; rewrite Rmult_assoc, Rinv_l by lra; lra).
  assert (q1 : q <= 1). { apply Rmult_le_reg_r with D; [lra|]. rewrite qD. unfold D. lra. }
  assert (d0 : 0 < B2R d) by nra.
  destruct (fdiv_key a d Fra Frd ltac:(lra)) as (Nq & Kq). set (y := B2R a / B2R d) in *.
  assert (yd : y * B2R d = B2R a) by (unfold y, Rdiv; rewrite Rmult_assoc, Rinv_l by lra; lra).
  assert (q0 : 0 < q) by lra.
  assert (Y : (1 - 5/2 * w) * q <= y <= (1 + 5/2 * w) * q).
  { split.
    - apply Rmult_le_reg_r with (B2R d); [lra|]. rewrite yd. apply Rle_trans with ((1 - 5/2 * w) * q * ((1 + w) * D)).
      + apply Rmult_le_compat_l; [nra|lra].
      + replace ((1 - 5/2*w)*q*((1+w)*D)) with ((1 - 5/2*w)*(1+w)*(2 * B2R m)) by (rewrite <- qD; ring). nra.
    - apply Rmult_le_reg_r with (B2R d); [lra|]. rewrite yd. apply Rle_trans with ((1 + 5/2 * w) * q * ((1 - w) * D)).
      + replace ((1 + 5/2*w)*q*((1-w)*D)) with ((1 + 5/2*w)*(1-w)*(2 * B2R m)) by (rewrite <- qD; ring). nra.
      + apply Rmult_le_compat_l; [nra|lra]. }
  assert (Yl : bpow radix2 (-126) <= y) by nra.
  assert (b1 : 2 <= bpow radix2 127). { replace 2 with (bpow radix2 1) by (simpl; lra). apply bpow_le. lia. }
  assert (Yu : y <= bpow radix2 127) by nra.
  destruct (FF _ _ Nq Kq ltac:(lra)) as (Fq & Vq). destruct (two_round _ _ Fq Vq ltac:(lra)) as (Frq & Eq). split; [exact Frq|].
  apply Rabs_le_inv in Eq. fold w in Eq. rewrite W4. assert (Yw : w * y <= w * ((1 + 5/2 * w) * q)) by (apply Rmult_le_compat_l; lra).
  set (z := w * q) in *. assert (z0 : 0 < z) by (unfold z; nra). replace (w * ((1 + 5/2 * w) * q)) with (z + 5/2 * (w * z)) in Yw by (unfold z; ring).
  replace ((1 + 5/2 * w) * q) with (q + 5/2 * z) in Y by (unfold z; ring). replace ((1 - 5/2 * w) * q) with (q - 5/2 * z) in Y by (unfold z; ring).
  replace (4 * w * q) with (4 * z) by (unfold z; ring). assert (ww : w * z <= / 1024 * z) by (apply Rmult_le_compat_r; lra). apply Rabs_le. split; lra.
Qed.
