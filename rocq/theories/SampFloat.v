(** Float facts about ProbabilitySampler: the drawn position is always in range *)
From Coq Require Import List Bool Arith ZArith Reals Lia Lra Psatz.
From Flocq Require Import Core BinarySingleNaN.
From Verif Require Import Flt FltMore Py RankModel.
Import ListNotations.
Local Open Scope R_scope.

Notation b2 := (bpow radix2).
Lemma val_of_key : forall x r, isnan x = false -> key x = r -> - big < r < big -> isfin x = true /\ B2R x = r.
Proof. intros x r N K B. assert (F : isfin x = true) by (apply fin_key; auto; rewrite K; auto). split; auto. now rewrite <- key_fin. Qed.
Lemma big_4 : 4 < big.
Proof. unfold big. replace 4 with (b2 2) by (simpl; lra). apply bpow_lt. lia. Qed.
Lemma fmt_mul : forall m e, (Z.abs m < 2^53)%Z -> (-1074 <= e <= 971)%Z -> generic_format radix2 fexp64 (IZR m * b2 e).
Proof. intros m e Hm He. destruct (flit_val m e Hm He) as [_ H]. rewrite <- H. apply generic_format_B2R. Qed.
Lemma crnd_fmt : forall r, generic_format radix2 fexp64 r -> - big < r < big -> crnd r = r.
Proof. intros r G B. unfold crnd, rnd. rewrite round_generic; auto with typeclass_instances. apply clamp_id. lra. Qed.
Lemma crnd_le : forall r y, generic_format radix2 fexp64 y -> - big < y < big -> r <= y -> crnd r <= y.
Proof. intros r y G B H. rewrite <- (crnd_fmt y G B). now apply crnd_mono. Qed.
Lemma crnd_ge : forall r y, generic_format radix2 fexp64 y -> - big < y < big -> y <= r -> y <= crnd r.
Proof. intros r y G B H. rewrite <- (crnd_fmt y G B). now apply crnd_mono. Qed.

Lemma fone_val : isfin fone = true /\ B2R fone = 1.
Proof. apply (fofZ_val 1). reflexivity. Qed.

(** the largest float below 1 *)
Lemma below_one : forall x : f64, isfin x = true -> B2R x < 1 -> B2R x <= 1 - b2 (-53).
Proof.
  intros x F H. assert (G1 : generic_format radix2 fexp64 1).
  { replace 1 with (IZR 1 * b2 0) by (simpl; lra). apply fmt_mul; lia. }
  replace (1 - b2 (-53)) with (pred radix2 fexp64 1).
  - apply pred_ge_gt; auto with typeclass_instances. apply generic_format_B2R.
  - replace 1 with (b2 0) at 1 by reflexivity. rewrite pred_bpow. reflexivity.
Qed.

(** square root in the triangular variate *)
Lemma sqrt_low : forall x : f64, isfin x = true -> b2 (-53) <= B2R x <= 1 ->
  isfin (fsqrt x) = true /\ 5 * b2 (-29) <= B2R (fsqrt x) <= 1.
Proof.
  intros x F [L U]. assert (P := bpow_gt_0 radix2 (-53)).
  destruct (fsqrt_key x F) as [F' V]; [lra| |].
  { intros ->. simpl in L. lra. }
  split; auto. rewrite V. split.
  - assert (G : generic_format radix2 fexp64 (5 * b2 (-29))) by (apply (fmt_mul 5); lia).
    apply round_ge_generic; auto with typeclass_instances.
    apply sqrt_le_1_alt in L. apply Rle_trans with (2 := L).
    replace (b2 (-53)) with ((b2 (-27) * b2 (-27)) * 2).
    + assert (0 < b2 (-27)) by apply bpow_gt_0. rewrite <- (sqrt_square (5 * b2 (-29))) by (assert (0 < b2 (-29)) by apply bpow_gt_0; lra).
      apply sqrt_le_1_alt. replace (b2 (-27)) with (4 * b2 (-29)). nra.
      change (-27)%Z with (2 + -29)%Z. rewrite bpow_plus. simpl (b2 2). lra.
    + rewrite <- bpow_plus. change (-53)%Z with (-27 + -27 + 1)%Z. rewrite (bpow_plus radix2 (-27 + -27) 1). simpl (b2 1). lra.
  - apply round_le_generic; auto with typeclass_instances.
    + replace 1 with (IZR 1 * b2 0) by (simpl; lra). apply fmt_mul; lia.
    + rewrite <- sqrt_1. apply sqrt_le_1_alt. lra.
Qed.

(** random.triangular(0, h, 0) *)
Lemma tri_form : forall m e H u, let h := B754_finite false m e H : f64 in
  triangular0 h u = if fltb fzero u then fadd h (fmul (fopp h) (fsqrt (fmul (fsub fone u) fone)))
                    else fadd fzero (fmul h (fsqrt (fmul u fzero))).
Proof. reflexivity. Qed.
Lemma one_minus : forall u, unit_draw u -> isfin (fmul (fsub fone u) fone) = true /\ b2 (-53) <= B2R (fmul (fsub fone u) fone) <= 1.
Proof.
  intros u Hu. destruct (unit_draw_real u Hu) as [Fu [U0 U1]]. destruct fone_val as [F1 V1]. assert (B4 := big_4).
  assert (P := bpow_gt_0 radix2 (-53)). assert (b2 (-53) < 1) by (apply (bpow_lt radix2 (-53) 0); lia).
  assert (G1 : generic_format radix2 fexp64 1). { replace 1 with (IZR 1 * b2 0) by (simpl; lra). apply fmt_mul; lia. }
  assert (G53 : generic_format radix2 fexp64 (b2 (-53))). { replace (b2 (-53)) with (IZR 1 * b2 (-53)) by lra. apply fmt_mul; lia. }
  destruct (fsub_key fone u F1 Fu) as [N K]. rewrite V1 in K.
  assert (A : b2 (-53) <= crnd (1 - B2R u)) by (apply crnd_ge; auto; lra).
  assert (B : crnd (1 - B2R u) <= 1) by (apply crnd_le; auto; lra).
  destruct (val_of_key _ _ N K) as [F V]; [lra|].
  destruct (fmul_key _ fone F F1) as [N' K']. rewrite V, V1, Rmult_1_r in K'.
  rewrite <- V in K'. rewrite crnd_B2R in K'. rewrite V in K'.
  destruct (val_of_key _ _ N' K') as [F' V']; [lra|]. split; auto. rewrite V'. lra.
Qed.
Lemma pos_finite : forall h : f64, isfin h = true -> 0 < B2R h -> exists m e H, h = B754_finite false m e H.
Proof.
  intros [s|s| |[|] m e H] F P; try easy.
  - simpl in P. lra.
  - exfalso. simpl in P. assert (X := F2R_lt_0 radix2 (Defs.Float radix2 (Z.neg m) e)). simpl in X. specialize (X eq_refl). lra.
  - eauto.
Qed.
(** range; and how far below h *)
Lemma triangular_range : forall h u, isfin h = true -> 0 < B2R h <= 1 -> unit_draw u ->
  isfin (triangular0 h u) = true /\ 0 <= B2R (triangular0 h u) <= B2R h /\
  (forall q, generic_format radix2 fexp64 q -> 0 <= q <= B2R h -> generic_format radix2 fexp64 (B2R h - q) ->
     q <= B2R h * (5 * b2 (-29)) -> B2R (triangular0 h u) <= B2R h - q).
Proof.
  intros h u Fh [P0 P1] Hu. assert (B4 := big_4). destruct (pos_finite h Fh P0) as (m & e & H & E).
  assert (TF := tri_form m e H u). cbv zeta in TF. rewrite <- E in TF. rewrite TF. clear TF.
  destruct (unit_draw_real u Hu) as [Fu [U0 U1]]. 
  destruct (fltb fzero u) eqn:Eu.
  - destruct (one_minus u Hu) as [Fo Ro]. set (o := fmul (fsub fone u) fone) in *.
    destruct (sqrt_low o Fo Ro) as [Fs Rs]. set (s := fsqrt o) in *.
    assert (Fop : isfin (fopp h) = true) by (now rewrite E).
    assert (Vop : B2R (fopp h) = - B2R h) by apply B2R_Bopp.
    destruct (fmul_key _ s Fop Fs) as [N K]. rewrite Vop in K.
    replace (- B2R h * B2R s) with (- (B2R h * B2R s)) in K by ring. rewrite crnd_opp in K.
    assert (Gh : generic_format radix2 fexp64 (B2R h)) by apply generic_format_B2R.
    assert (PB : 0 < b2 (-29)) by apply bpow_gt_0.
    assert (S0 : 0 <= B2R h * B2R s) by nra.
    assert (C0 : 0 <= crnd (B2R h * B2R s)) by now apply crnd_ge0.
    assert (C1 : crnd (B2R h * B2R s) <= B2R h) by (apply crnd_le; auto; [lra|nra]).
    destruct (val_of_key _ _ N K) as [Fm Vm]; [lra|]. set (mm := fmul (fopp h) s) in *.
    destruct (fadd_key h mm Fh Fm) as [N' K']. rewrite Vm in K'.
    assert (D0 : 0 <= crnd (B2R h + - crnd (B2R h * B2R s))) by (apply crnd_ge0; lra).
    assert (D1 : crnd (B2R h + - crnd (B2R h * B2R s)) <= B2R h) by (apply crnd_le; auto; lra).
    destruct (val_of_key _ _ N' K') as [Ft Vt]; [lra|]. rewrite Vt. repeat split; auto.
    intros q Gq Q0 Gd Q. apply crnd_le; auto; [lra|].
    assert (q <= crnd (B2R h * B2R s)); [|lra]. apply crnd_ge; auto; [lra|]. nra.
  - assert (Z : B2R u = 0).
    { assert (X := fltb_false fzero u eq_refl (nan_fin _ Fu) Eu). rewrite (key_fin u Fu), key_fzero in X. lra. }
    assert (E0 : fadd fzero (fmul h (fsqrt (fmul u fzero))) = fzero).
    { destruct u as [[|]|s| |[|] mu eu Hmu]; try easy; try (rewrite E; reflexivity).
      }
    rewrite E0. simpl (B2R fzero). repeat split; try lra. intros; lra.
Qed.

(** ProbabilitySampler's variate *)
Definition rb_ok (rb : f64) : Prop := fltb fzero rb = true /\ fleb rb (flit (2^28 - 1) (-28)) = true.

Lemma f_half_val : isfin f_half = true /\ B2R f_half = b2 (-1).
Proof. destruct (flit_val 1 (-1)) as [F V]; try lia. split; auto. unfold f_half. rewrite V. lra. Qed.
Lemma rb_bits : forall x : f64, isfin x = true -> b2 (-1) < B2R x < 1 -> exists z, B2R x = IZR z * b2 (-53).
Proof.
  intros x F [L U]. exists (Ztrunc (scaled_mantissa radix2 fexp64 (B2R x))).
  rewrite (generic_format_B2R 53 1024 x) at 1. unfold F2R. cbn [Fnum Fexp]. f_equal. f_equal. unfold cexp.
  rewrite (mag_unique_pos radix2 (B2R x) 0); [reflexivity|]. simpl (b2 0). change (0 - 1)%Z with (-1)%Z. lra.
Qed.
Lemma b2_split : forall a b, b2 (a + b) = b2 a * b2 b.
Proof. intros; apply bpow_plus. Qed.
Lemma near_one : forall r, r <= 1 - 5 * b2 (-56) -> crnd r < 1.
Proof.
  intros r H. apply crnd_mono in H. apply Rle_lt_trans with (1 := H).
  destruct (flit_key (2^56 - 5) (-56)) as [N K].
  replace (IZR (2^56 - 5) * b2 (-56)) with (1 - 5 * b2 (-56)) in K.
  - rewrite <- K. assert (X : fltb (flit (2^56-5) (-56)) fone = true) by (vm_compute; reflexivity).
    apply fltb_spec in X. rewrite key_fone in X. tauto.
  - rewrite minus_IZR. change (IZR (2^56)) with (IZR (radix2 ^ 56)). rewrite IZR_Zpower by lia.
    rewrite Rmult_minus_distr_r, <- bpow_plus. reflexivity.
Qed.

Lemma variate_range : forall rb u1 u2, rb_ok rb -> unit_draw u1 -> unit_draw u2 ->
  isfin (ps_variate rb u1 u2) = true /\ 0 <= B2R (ps_variate rb u1 u2) < 1.
Proof.
  intros rb u1 u2 [R1 R2] Hu1 Hu2. assert (B4 := big_4).
  apply fltb_spec in R1. destruct R1 as (_ & N & R1). rewrite key_fzero in R1.
  apply fleb_spec in R2. destruct R2 as (_ & _ & R2).
  destruct (flit_val (2^28-1) (-28)) as [F28 V28]; try lia. rewrite (key_fin _ F28), V28 in R2.
  rewrite minus_IZR in R2. change (IZR (2^28)) with (IZR (radix2 ^ 28)) in R2. rewrite IZR_Zpower in R2 by lia.
  rewrite Rmult_minus_distr_r, <- bpow_plus in R2. change (b2 (28 + -28)) with 1 in R2. rewrite Rmult_1_l in R2.
  assert (P28 := bpow_gt_0 radix2 (-28)).
  destruct (val_of_key rb (key rb) N eq_refl) as [F V]; [lra|]. rewrite <- V in *. clear V.
  destruct fone_val as [F1 V1]. destruct f_half_val as [Fh Vh].
  assert (F2 : isfin (fofZ 2) = true /\ B2R (fofZ 2) = 2) by (apply fofZ_val; reflexivity). destruct F2 as [F2 V2].
  assert (H1 : b2 (-1) = / 2) by reflexivity.
  assert (G1 : generic_format radix2 fexp64 1). { replace 1 with (IZR 1 * b2 0) by (simpl; lra). apply fmt_mul; lia. }
  unfold ps_variate. destruct (fltb f_half rb) eqn:E.
  - (* trapezoid *)
    apply fltb_spec in E. destruct E as (_ & _ & E). rewrite (key_fin _ Fh), (key_fin _ F), Vh in E.
    destruct (rb_bits rb F) as [z Hz]; [lra|].
    assert (P53 := bpow_gt_0 radix2 (-53)).
    assert (Z1 : (2^52 < z)%Z).
    { apply lt_IZR. apply Rmult_lt_reg_r with (b2 (-53)); auto. rewrite <- Hz. change (IZR (2^52)) with (IZR (radix2 ^ 52)).
      rewrite IZR_Zpower, <- bpow_plus by lia. exact E. }
    assert (Z2 : (z <= 2^53 - 2^25)%Z).
    { apply le_IZR. apply Rmult_le_reg_r with (b2 (-53)); auto. rewrite <- Hz, minus_IZR.
      change (IZR (2^53)) with (IZR (radix2 ^ 53)). change (IZR (2^25)) with (IZR (radix2 ^ 25)).
      rewrite !IZR_Zpower by lia. rewrite Rmult_minus_distr_r, <- !bpow_plus. exact R2. }
    assert (E52 : b2 (-52) = 2 * b2 (-53)). { change (-52)%Z with (1 + -53)%Z. rewrite bpow_plus. reflexivity. }
    assert (E1 : 1 = IZR (2^53) * b2 (-53)). { change (IZR (2^53)) with (IZR (radix2 ^ 53)). rewrite IZR_Zpower, <- bpow_plus by lia. reflexivity. }
    assert (E25 : IZR (2^25) * b2 (-52) = b2 (-27)). { change (IZR (2^25)) with (IZR (radix2 ^ 25)). rewrite IZR_Zpower, <- bpow_plus by lia. reflexivity. }
    assert (Eh : / 2 = IZR (2^52) * b2 (-53)). { change (IZR (2^52)) with (IZR (radix2 ^ 52)). rewrite IZR_Zpower, <- bpow_plus by lia. reflexivity. }
    (* rb - 0.5 *)
    destruct (fsub_key rb f_half F Fh) as [Na Ka]. rewrite Vh, H1 in Ka.
    assert (A : B2R rb - / 2 = IZR (z - 2^52) * b2 (-53)). { rewrite minus_IZR, Hz. lra. }
    rewrite A, crnd_fmt in Ka; [| apply fmt_mul; lia | rewrite <- A; lra].
    destruct (val_of_key _ _ Na Ka) as [Fa Va]; [rewrite <- A; lra|].
    (* rc *)
    destruct (fmul_key (fofZ 2) _ F2 Fa) as [Nc Kc]. rewrite V2, Va in Kc.
    assert (C : 2 * (IZR (z - 2^52) * b2 (-53)) = IZR (z - 2^52) * b2 (-52)) by (rewrite E52; lra).
    rewrite C, crnd_fmt in Kc; [| apply fmt_mul; lia | rewrite <- C, <- A; lra].
    destruct (val_of_key _ _ Nc Kc) as [Fc Vc]; [rewrite <- C, <- A; lra|].
    set (rc := fmul (fofZ 2) (fsub rb f_half)) in *.
    assert (Rc : B2R rc = 2 * B2R rb - 1) by (rewrite Vc, <- C, <- A; lra).
    unfold trapz. destruct (fltb u1 _).
    + destruct (fsub_key fone rc F1 Fc) as [Nw Kw]. rewrite V1 in Kw.
      assert (W : 1 - B2R rc = IZR (2^53 - z) * b2 (-52)). { rewrite Rc, minus_IZR, Hz, E52. lra. }
      rewrite W, crnd_fmt in Kw; [|apply fmt_mul; lia|rewrite <- W; lra].
      destruct (val_of_key _ _ Nw Kw) as [Fw Vw]; [rewrite <- W; lra|].
      set (w := fsub fone rc) in *.
      assert (W27 : b2 (-27) <= B2R w). { rewrite Vw, <- E25. apply Rmult_le_compat_r; [apply bpow_ge_0|]. apply IZR_le. lia. }
      assert (Wv : B2R w = 1 - B2R rc) by (rewrite Vw, <- W; reflexivity).
      assert (P27 := bpow_gt_0 radix2 (-27)).
      destruct (triangular_range w u2 Fw) as (Ft & [T0 T1] & T2); [lra|auto|].
      set (t := triangular0 w u2) in *.
      assert (T : B2R t <= B2R w - 5 * b2 (-56)).
      { assert (E56 : b2 (-56) = b2 (-27) * b2 (-29)) by (rewrite <- bpow_plus; reflexivity).
        assert (P29 := bpow_gt_0 radix2 (-29)). assert (P29' : b2 (-29) <= b2 (-27)) by (apply bpow_le; lia).
        assert (P27' : b2 (-27) <= b2 (-5)) by (apply bpow_le; lia). assert (E5 : b2 (-5) = / 32) by reflexivity.
        destruct (Z_lt_le_dec (2^53 - z) (2^49)) as [Zs|Zs].
        - apply (T2 (5 * b2 (-56))).
          + apply (fmt_mul 5); lia.
          + rewrite E56. nra.
          + rewrite Vw. replace (IZR (2^53 - z) * b2 (-52) - 5 * b2 (-56)) with (IZR (16 * (2^53 - z) - 5) * b2 (-56)).
            * apply fmt_mul; lia.
            * rewrite (minus_IZR _ 5), mult_IZR. replace (b2 (-52)) with (16 * b2 (-56)); [ring|]. change (-52)%Z with (4 + -56)%Z. rewrite bpow_plus. reflexivity.
          + rewrite E56. nra.
        - assert (Wb : b2 (-3) <= B2R w).
          { rewrite Vw. replace (b2 (-3)) with (IZR (2^49) * b2 (-52)). apply Rmult_le_compat_r; [apply bpow_ge_0|]. apply IZR_le. lia.
            change (IZR (2^49)) with (IZR (radix2 ^ 49)). rewrite IZR_Zpower, <- bpow_plus by lia. reflexivity. }
          assert (E32 : b2 (-32) = b2 (-3) * b2 (-29)) by (rewrite <- bpow_plus; reflexivity).
          assert (E3 : b2 (-3) = / 8) by reflexivity.
          assert (Le : b2 (-56) <= b2 (-35)) by (apply bpow_le; lia).
          assert (E35 : b2 (-32) = 8 * b2 (-35)). { change (-32)%Z with (3 + -35)%Z. rewrite bpow_plus. reflexivity. }
          assert (B2R t <= B2R w - b2 (-32)); [|generalize (bpow_gt_0 radix2 (-35)); lra].
          apply (T2 (b2 (-32))).
          + replace (b2 (-32)) with (IZR 1 * b2 (-32)) by lra. apply fmt_mul; lia.
          + rewrite E32. nra.
          + rewrite Vw. replace (IZR (2^53 - z) * b2 (-52) - b2 (-32)) with (IZR (2^53 - z - 2^20) * b2 (-52)).
            * apply fmt_mul; lia.
            * rewrite (minus_IZR _ (2^20)). replace (b2 (-32)) with (IZR (2^20) * b2 (-52)); [ring|].
              change (IZR (2^20)) with (IZR (radix2 ^ 20)). rewrite IZR_Zpower, <- bpow_plus by lia. reflexivity.
          + rewrite E32. nra. }
      destruct (fadd_key rc t Fc Ft) as [Nr Kr].
      assert (Lt1 : crnd (B2R rc + B2R t) < 1) by (apply near_one; lra).
      assert (Ge0 : 0 <= crnd (B2R rc + B2R t)) by (apply crnd_ge0; lra).
      destruct (val_of_key _ _ Nr Kr) as [Fr Vr]; [lra|]. rewrite Vr. split; auto. 
    + assert (Fz : isfin (fsub rc fzero) = true).
      { destruct (fsub_key rc fzero Fc eq_refl) as [Nz Kz]. simpl (B2R fzero) in Kz. rewrite Rminus_0_r, crnd_B2R in Kz.
        destruct (val_of_key _ _ Nz Kz); auto. lra. }
      destruct (funiform_range fzero rc u2 eq_refl Fc Fz) as [Fr Rr]; auto; [simpl; lra|].
      simpl (B2R fzero) in Rr. split; auto. lra.
  - (* triangle *)
    assert (E' := fltb_false _ _ (nan_fin _ Fh) (nan_fin _ F) E). rewrite (key_fin _ Fh), (key_fin _ F), Vh in E'.
    destruct (fmul_key (fofZ 2) rb F2 F) as [Nh Kh]. rewrite V2 in Kh.
    assert (L0 : B2R rb <= crnd (2 * B2R rb)) by (apply crnd_ge; [apply generic_format_B2R|lra|lra]).
    assert (L1 : crnd (2 * B2R rb) <= 1) by (apply crnd_le; auto; lra).
    destruct (val_of_key _ _ Nh Kh) as [Fh' Vh']; [lra|]. set (h := fmul (fofZ 2) rb) in *.
    destruct (triangular_range h u1 Fh') as (Ft & [T0 T1] & T2); [lra|auto|].
    split; auto. split; auto. assert (HL : B2R h <= 1) by lra. destruct (Rle_lt_or_eq_dec (B2R h) 1 HL) as [Lt|Eq]; [lra|].
    assert (P29 := bpow_gt_0 radix2 (-29)). assert (P29' : b2 (-29) < 1) by (apply (bpow_lt radix2 (-29) 0); lia).
    assert (B2R (triangular0 h u1) <= B2R h - b2 (-29)); [|lra].
    apply T2; try lra.
    + replace (b2 (-29)) with (IZR 1 * b2 (-29)) by lra. apply fmt_mul; lia.
    + rewrite Eq. replace (1 - b2 (-29)) with (IZR (2^29 - 1) * b2 (-29)). apply fmt_mul; lia.
      rewrite minus_IZR. change (IZR (2^29)) with (IZR (radix2 ^ 29)). rewrite IZR_Zpower by lia.
      rewrite Rmult_minus_distr_r, <- bpow_plus. change (b2 (29 + -29)) with 1. lra.
    + rewrite Eq. lra.
Qed.

(** the position drawn is inside the list *)
Lemma ps_call_ok : forall K rb u1 u2, rb_ok rb -> unit_draw u1 -> unit_draw u2 ->
  (0 < length K)%nat -> (Z.of_nat (length K) < 2^53)%Z -> exists k, ps_call K rb u1 u2 = Ok k /\ In k K.
Proof.
  intros K rb u1 u2 Hrb Hu1 Hu2 L0 L1. assert (B4 := big_4).
  destruct (variate_range rb u1 u2 Hrb Hu1 Hu2) as [Fv [V0 V1]]. set (v := ps_variate rb u1 u2) in *.
  assert (V1' := below_one v Fv V1).
  destruct (fofZ_val (Z.of_nat (length K))) as [Fn Vn]; [lia|]. set (n := fofZ (Z.of_nat (length K))) in *.
  assert (N1 : 1 <= B2R n). { rewrite Vn. apply (IZR_le 1). lia. }
  destruct (fmul_key v n Fv Fn) as [Nm Km].
  assert (Lt : rnd (B2R n * B2R v) < B2R n).
  { apply rnd_draw_lt; [apply generic_format_B2R| |lra]. apply Rle_trans with 1; auto. apply (bpow_le radix2 (-1021) 0). lia. }
  rewrite Rmult_comm in Lt. assert (Ge : 0 <= rnd (B2R v * B2R n)) by (apply rnd_ge0; nra).
  assert (Bn := fin_bound n).
  assert (Kc : crnd (B2R v * B2R n) = rnd (B2R v * B2R n)) by (unfold crnd; apply clamp_id; lra).
  rewrite Kc in Km. destruct (val_of_key _ _ Nm Km) as [Fm Vm]; [lra|].
  unfold ps_call. fold v n. unfold py_int. rewrite Fm. cbn [bind]. unfold py_index.
  assert (T := Btrunc_correct 53 1024 eq_refl (fmul v n)). rewrite round_FIX_IZR in T. apply eq_IZR in T.
  unfold ftrunc. rewrite T. rewrite Vm.
  assert (T0 : (0 <= Ztrunc (rnd (B2R v * B2R n)))%Z). { rewrite Ztrunc_floor by auto. apply Zfloor_lub. exact Ge. }
  assert (T1 : (Ztrunc (rnd (B2R v * B2R n)) < Z.of_nat (length K))%Z).
  { rewrite Ztrunc_floor by auto. apply lt_IZR. rewrite <- Vn. apply Rle_lt_trans with (2 := Lt). apply Zfloor_lb. }
  set (z := Ztrunc (rnd (B2R v * B2R n))) in *.
  destruct (z <? 0)%Z eqn:Ez; [apply Z.ltb_lt in Ez; lia|]. rewrite Ez.
  destruct (nth_error K (Z.to_nat z)) as [k|] eqn:Ek; [|apply nth_error_None in Ek; lia].
  exists k. split; auto. eapply nth_error_In; eauto.
Qed.
