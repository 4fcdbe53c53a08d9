(** * Property C37: how many pairs pairs_sampled (ade/history.py:637-656) draws *)
From Coq Require Import List Bool Arith ZArith Lia Reals Lra Psatz.
From Flocq Require Import Core BinarySingleNaN Relative.
From Verif Require Import Flt FltMore Py HistModel AnalRange.
Import ListNotations.
Local Open Scope R_scope.

(** rounding a number of moderate size changes it by less than one part in a million *)
Lemma crnd_rel x : 1 <= x <= bpow radix2 200 -> x * (1 - / 1000000) <= crnd x <= x * (1 + / 1000000) /\ crnd x < big.
Proof.
  intros H.
  assert (Er : Rabs (rnd x - x) <= / 2 * bpow radix2 (-53 + 1) * Rabs x).
  { unfold rnd. fold fexp64. rewrite fexp64_eq. apply relative_error_N_FLT; [reflexivity|]. rewrite Rabs_pos_eq by lra. apply Rle_trans with 1; [|lra].
    change 1 with (bpow radix2 0). apply bpow_le. lia. }
  rewrite (Rabs_pos_eq x) in Er by lra.
  assert (U : 0 < / 2 * bpow radix2 (-53 + 1) <= / 1000000).
  { assert (bpow radix2 (-53 + 1) <= bpow radix2 (-20)) by (apply bpow_le; lia). assert (P := bpow_gt_0 radix2 (-53 + 1)).
    assert (bpow radix2 (-20) = / 1048576) by (simpl; lra). lra. }
  set (u := / 2 * bpow radix2 (-53 + 1)) in *. assert (ux : u * x <= / 1000000 * x) by (apply Rmult_le_compat_r; lra).
  apply Rabs_le_inv in Er.
  assert (B : bpow radix2 200 * 2 < big). { replace (bpow radix2 200 * 2) with (bpow radix2 201) by (replace 2 with (bpow radix2 1) by (simpl; lra); now rewrite <- bpow_plus). apply bpow_lt. lia. }
  assert (C : crnd x = rnd x) by (unfold crnd; apply clamp_id; assert (bp := big_pos); lra).
  rewrite C. lra.
Qed.
Lemma fin_of x : isnan x = false -> 0 <= key x < big -> isfin x = true.
Proof. intros N K. apply fin_key; auto. assert (bp := big_pos). lra. Qed.
Lemma f2_1_val : isfin f2_1 = true /\ 2.0999999 <= B2R f2_1 <= 2.1000001.
Proof.
  unfold f2_1. destruct (flit_val 4728779608739021 (-51)) as [F V]; [reflexivity|lia|]. split; [exact F|]. rewrite V. simpl (bpow radix2 (-51)). lra.
Qed.

(** A round of sampling draws so many pairs that, on average, more than enough of them can be
    used, by seven and a half percent at most: of the Nr*Nr equally likely outcomes, Nr*(Nr-1)/2 are usable *)
Theorem C37_draws : forall Nr N, (2 <= Nr)%nat -> (11 <= N)%nat -> (Z.of_nat Nr < 2^50)%Z -> (Z.of_nat N < 2^50)%Z ->
  (2 * Nr * N <= n_draws Nr N * (Nr - 1))%nat /\ (20 * (n_draws Nr N * (Nr - 1)) <= 43 * (Nr * N))%nat.
Proof.
  intros Nr N L1 L2 L3 L4. destruct f2_1_val as [Fc Vc].
  destruct (fofZ_val (Z.of_nat Nr)) as [Fr Vr]; [lia|]. destruct (fofZ_val (Z.of_nat Nr - 1)) as [Fs Vs]; [lia|]. destruct (fofZ_val (Z.of_nat N)) as [Fn Vn]; [lia|].
  unfold n_draws. rewrite ftrunc_val.
  assert (R2 : 2 <= IZR (Z.of_nat Nr)) by (apply IZR_le; lia). assert (N11 : 11 <= IZR (Z.of_nat N)) by (apply IZR_le; lia).
  assert (Rb : IZR (Z.of_nat Nr) <= bpow radix2 50) by (change (bpow radix2 50) with (IZR (2^50)); apply IZR_le; lia).
  assert (Nb : IZR (Z.of_nat N) <= bpow radix2 50) by (change (bpow radix2 50) with (IZR (2^50)); apply IZR_le; lia).
  rewrite minus_IZR in Vs. set (r := IZR (Z.of_nat Nr)) in *. set (n := IZR (Z.of_nat N)) in *. set (c := B2R f2_1) in *.
  assert (P50 : bpow radix2 50 * 8 <= bpow radix2 200). { replace (bpow radix2 50 * 8) with (bpow radix2 53) by (replace 8 with (bpow radix2 3) by (simpl; lra); now rewrite <- bpow_plus). apply bpow_le. lia. }
  assert (P100 : bpow radix2 50 * bpow radix2 50 * 8 <= bpow radix2 200). { rewrite <- bpow_plus. replace (bpow radix2 (50 + 50) * 8) with (bpow radix2 103) by (replace 8 with (bpow radix2 3) by (simpl; lra); now rewrite <- bpow_plus). apply bpow_le. lia. }
  assert (G50 : 0 < bpow radix2 50) by apply bpow_gt_0.
  (* 2.1*Nr *)
  destruct (fmul_key f2_1 (fofZ (Z.of_nat Nr)) Fc Fr) as [N1 K1]. rewrite Vr in K1. fold c in K1.
  assert (cr : 2.0999999 * r <= c * r <= 2.1000001 * r) by (split; apply Rmult_le_compat_r; lra).
  destruct (crnd_rel (c * r)) as [B1 T1]; [lra|]. rewrite <- K1 in B1, T1.
  assert (F1 := fin_of _ N1 ltac:(lra)). rewrite key_fin in B1 by exact F1. clear K1 N1 T1. set (a := fmul f2_1 (fofZ (Z.of_nat Nr))) in *.
  assert (A : 2.0999 * r <= B2R a <= 2.10001 * r) by lra.
  (* / (Nr-1) *)
  assert (Nz : r - 1 <> 0) by lra. destruct (fdiv_key a (fofZ (Z.of_nat Nr - 1)) F1 Fs ltac:(rewrite Vs; exact Nz)) as [N2 K2]. rewrite Vs in K2.
  set (x := r / (r - 1)). assert (X : 1 <= x <= 2). { unfold x. split; [apply Rmult_le_reg_r with (r - 1); [lra|]|apply Rmult_le_reg_r with (r - 1); [lra|]]; unfold Rdiv; rewrite Rmult_assoc, Rinv_l by lra; lra. }
  assert (ax : 2.0999 * x <= B2R a / (r - 1) <= 2.10001 * x).
  { assert (I : 0 < / (r - 1)) by (apply Rinv_0_lt_compat; lra). unfold x, Rdiv. rewrite <- !Rmult_assoc. split; apply Rmult_le_compat_r; lra. }
  destruct (crnd_rel (B2R a / (r - 1))) as [B2 T2]. { assert (1 <= bpow radix2 50) by (change 1 with (bpow radix2 0); apply bpow_le; lia). lra. }
  rewrite <- K2 in B2, T2. assert (F2 := fin_of _ N2 ltac:(lra)). rewrite key_fin in B2 by exact F2. clear K2 N2 T2. set (m := fdiv a (fofZ (Z.of_nat Nr - 1))) in *.
  assert (M : 2.0998 * x <= B2R m <= 2.1001 * x) by lra.
  (* * N *)
  destruct (fmul_key m (fofZ (Z.of_nat N)) F2 Fn) as [N3 K3]. rewrite Vn in K3.
  assert (mn : 2.0998 * (x * n) <= B2R m * n <= 2.1001 * (x * n)) by (rewrite <- !Rmult_assoc; split; apply Rmult_le_compat_r; lra).
  assert (xn : 11 <= x * n <= 2 * bpow radix2 50) by (split; [replace 11 with (1 * 11) by ring; apply Rmult_le_compat; lra|apply Rmult_le_compat; lra]).
  destruct (crnd_rel (B2R m * n)) as [B3 T3]; [lra|]. rewrite <- K3 in B3, T3. assert (F3 := fin_of _ N3 ltac:(lra)). rewrite key_fin in B3 by exact F3.
  set (v := fmul m (fofZ (Z.of_nat N))) in *. clear K3 N3 T3. assert (V : 2.0997 * (x * n) <= B2R v <= 2.1002 * (x * n)) by lra.
  rewrite Ztrunc_floor by lra. assert (Zl := Zfloor_lb (B2R v)). assert (Zu := Zfloor_ub (B2R v)).
  assert (Z0 : (0 <= Zfloor (B2R v))%Z) by (apply Zfloor_lub; lra). set (d := Zfloor (B2R v)) in *.
  assert (xr : x * (r - 1) = r) by (unfold x; field; lra).
  assert (D1 : 2 * r * n <= IZR d * (r - 1)).
  { apply Rle_trans with ((2.0997 * (x * n) - 1) * (r - 1)); [|apply Rmult_le_compat_r; lra].
    replace ((2.0997 * (x * n) - 1) * (r - 1)) with (2.0997 * n * (x * (r - 1)) - (r - 1)) by ring. rewrite xr. nra. }
  assert (D2 : 20 * (IZR d * (r - 1)) <= 43 * (r * n)).
  { assert (IZR d * (r - 1) <= 2.1002 * (x * n) * (r - 1)) by (apply Rmult_le_compat_r; lra).
    replace (2.1002 * (x * n) * (r - 1)) with (2.1002 * n * (x * (r - 1))) in H by ring. rewrite xr in H. nra. }
  unfold r, n in D1, D2. rewrite <- minus_IZR in D1, D2. repeat rewrite <- mult_IZR in D1. repeat rewrite <- mult_IZR in D2. apply le_IZR in D1, D2. split.
  - apply Nat2Z.inj_le. rewrite !Nat2Z.inj_mul, Nat2Z.inj_sub, Z2Nat.id by lia. exact D1.
  - apply Nat2Z.inj_le. rewrite !Nat2Z.inj_mul, Nat2Z.inj_sub, Z2Nat.id by lia. exact D2.
Qed.
Print Assumptions C37_draws.
Example C37_draws_case : n_draws 2 11 = 46%nat /\ n_draws 150 100 = 211%nat /\ (2 * 150 * 100 <= 211 * 149)%nat.
Proof. split; [vm_compute; reflexivity|]. split; [vm_compute; reflexivity|lia]. Qed.
(** for fewer pairs the truncation can take away the reserve *)
Theorem C37_draws_few_refuted : n_draws 100 1 = 2%nat /\ ~ (2 * 100 * 1 <= n_draws 100 1 * (100 - 1))%nat.
Proof. assert (E : n_draws 100 1 = 2%nat) by (vm_compute; reflexivity). rewrite E. split; [reflexivity|lia]. Qed.
