(** * Property C108: the curves and evaluators of the examples. *)
From Coq Require Import List Bool Arith ZArith Reals Lia Lra.
From Flocq Require Import Core BinarySingleNaN Relative.
From Verif Require Import Flt FltMore Py ExamModel ExamProps PairModel PairProps FitModel.
Import ListNotations.
Local Open Scope R_scope.

(** finite numbers between zero and 2^e *)
Definition bd (e : Z) (x : f64) : Prop := isfin x = true /\ 0 <= B2R x <= bpow radix2 e.
Lemma bd_key e x : bd e x -> key x = B2R x. Proof. intros [F _]. now apply key_fin. Qed.
Lemma bd_of e x : (-1074 <= e < 1024)%Z -> isnan x = false -> 0 <= key x <= bpow radix2 e -> bd e x.
Proof.
  intros E N [A B]. assert (F : isfin x = true) by (apply fin_lt_big; auto; split; auto; apply Rle_lt_trans with (1 := B); now apply big_gt).
  split; auto. now rewrite <- key_fin.
Qed.
Lemma bd_weaken e e' x : bd e x -> (e <= e')%Z -> bd e' x.
Proof. intros [F [A B]] L. split; auto. split; auto. apply Rle_trans with (1 := B). now apply bpow_le. Qed.
Lemma bd_mul e e' x y : (-1074 <= e + e' < 1024)%Z -> bd e x -> bd e' y -> bd (e + e') (fmul x y) /\ B2R (fmul x y) = crnd (B2R x * B2R y).
Proof.
  intros E [FX [X0 X1]] [FY [Y0 Y1]]. destruct (fmul_key x y FX FY) as [N K].
  assert (B : bd (e + e') (fmul x y)).
  { apply bd_of; auto. rewrite K. split; [apply crnd_ge0; nra|]. rewrite <- crnd_bpow by lia. apply crnd_mono. rewrite bpow_plus. apply Rmult_le_compat; auto. }
  split; auto. now rewrite <- (bd_key _ _ B).
Qed.
Lemma bd_add e x y : (-1074 <= e + 1 < 1024)%Z -> bd e x -> bd e y -> bd (e + 1) (fadd x y) /\ B2R (fadd x y) = crnd (B2R x + B2R y).
Proof.
  intros E [FX [X0 X1]] [FY [Y0 Y1]]. destruct (fadd_key x y FX FY) as [N K].
  assert (B : bd (e + 1) (fadd x y)).
  { apply bd_of; auto. rewrite K. split; [apply crnd_ge0; lra|]. rewrite <- crnd_bpow by lia. apply crnd_mono. rewrite bpow_plus. change (bpow radix2 1) with 2. lra. }
  split; auto. now rewrite <- (bd_key _ _ B).
Qed.
Lemma bd_le e e' x y : bd e x -> bd e' y -> B2R x <= B2R y -> fleb x y = true.
Proof. intros [F _] [F' _] L. apply fleb_spec. split; [now apply nan_fin|]. split; [now apply nan_fin|]. now rewrite !key_fin. Qed.
Lemma fle_B2R x y : isfin x = true -> isfin y = true -> fleb x y = true -> B2R x <= B2R y.
Proof. intros F F' L. apply fleb_spec in L as (_ & _ & L). now rewrite !key_fin in L. Qed.

(** ** The thermistor's curve *)
(** np.log: a number of moderate size for every positive finite argument, never
    decreasing, not negative from one on *)
Definition log_ok (nplog : f64 -> f64) : Prop :=
  (forall x, isfin x = true -> 0 < B2R x -> isfin (nplog x) = true /\ Rabs (B2R (nplog x)) <= 1024) /\
  (forall x y, isfin y = true -> 0 < B2R x -> fleb x y = true -> fleb (nplog x) (nplog y) = true) /\
  (forall x, isfin x = true -> fleb fone x = true -> fleb fzero (nplog x) = true).
(** the third power of numbers from 0 to 1024 *)
Definition pow3_ok (pow3 : f64 -> f64) : Prop :=
  (forall x, bd 10 x -> bd 31 (pow3 x)) /\ (forall x y, bd 10 x -> bd 10 y -> fleb x y = true -> fleb (pow3 x) (pow3 y) = true).
(** the fourth power of numbers of moderate size *)
Definition pow4_ok (pow4 : f64 -> f64) : Prop := forall x, isfin x = true -> Rabs (B2R x) <= bpow radix2 20 -> bd 100 (pow4 x).
(** a parameter value: finite, from 2^-30 to 2^10.  All bounds of the example are in this range *)
Definition param (x : f64) : Prop := isfin x = true /\ bpow radix2 (-30) <= B2R x <= bpow radix2 10.
Definition resistance (x : f64) : Prop := isfin x = true /\ 1 <= B2R x.

Lemma param_bd x : param x -> bd 10 x.
Proof. intros [F [A B]]. split; auto. split; auto. apply Rle_trans with (2 := A). apply bpow_ge_0. Qed.
Lemma res_log nplog x : log_ok nplog -> resistance x -> bd 10 (nplog x).
Proof.
  intros (L1 & _ & L3) [F O]. destruct (L1 x F ltac:(lra)) as [G A]. split; auto. split.
  - assert (Z : fleb fzero (nplog x) = true). { apply L3; auto. apply fleb_spec. split; [reflexivity|]. split; [now apply nan_fin|]. rewrite key_fone, key_fin; auto. }
    apply fle_B2R in Z; auto.
  - change (bpow radix2 10) with 1024. apply Rle_trans with (2 := A). apply Rle_abs.
Qed.
Lemma offset_val : isfin T_kelvin_offset = true /\ 273 <= B2R T_kelvin_offset <= 274.
Proof.
  destruct (flit_val 4805305618032230 (-44)) as [A B]; [reflexivity|lia|]. split; [exact A|]. unfold T_kelvin_offset. rewrite B.
  change (bpow radix2 (-44)) with (/ IZR 17592186044416). lra.
Qed.
Section Curve.
Variables nplog pow3 : f64 -> f64.
Hypothesis LOG : log_ok nplog.
Hypothesis POW : pow3_ok pow3.
Variable args : list f64.
Hypothesis ARGS : length args = 8%nat /\ Forall param args.

Definition prod (k : nat) : f64 := fmul (nth k args fzero) (nth (k + 4) args fzero).
Lemma prod_ok k : (k < 4)%nat -> bd 20 (prod k) /\ bpow radix2 (-60) <= B2R (prod k).
Proof.
  destruct ARGS as [L F]. intros K. rewrite Forall_forall in F.
  assert (P : forall i, (i < 8)%nat -> param (nth i args fzero)) by (intros i I; apply F, nth_In; lia).
  pose proof (P k ltac:(lia)) as A. pose proof (P (k + 4)%nat ltac:(lia)) as B.
  destruct (bd_mul 10 10 _ _ ltac:(lia) (param_bd _ A) (param_bd _ B)) as [C D]. split; [exact C|].
  unfold prod. rewrite D. rewrite <- crnd_bpow by lia. apply crnd_mono. change (-60)%Z with (-30 + -30)%Z. rewrite bpow_plus. destruct A as [_ [A _]], B as [_ [B _]].
  assert (0 < bpow radix2 (-30)) by apply bpow_gt_0. apply Rmult_le_compat; lra.
Qed.
Definition denom (R : f64) : f64 :=
  fadd (fadd (fadd (prod 0) (fmul (prod 1) (nplog R))) (fmul (prod 2) (fmul (nplog R) (nplog R)))) (fmul (prod 3) (pow3 (nplog R))).
Lemma denom_ok R R' : resistance R -> resistance R' -> fleb R R' = true ->
  bd 54 (denom R) /\ bd 54 (denom R') /\ bpow radix2 (-60) <= B2R (denom R) <= B2R (denom R').
Proof.
  intros HR HR' L. pose proof (res_log _ _ LOG HR) as A. pose proof (res_log _ _ LOG HR') as A'.
  assert (LE : fleb (nplog R) (nplog R') = true) by (destruct LOG as (_ & M & _); apply M; auto; [apply HR'|destruct HR; lra]).
  set (x := nplog R) in *. set (y := nplog R') in *. unfold denom. fold x y.
  assert (LX : B2R x <= B2R y) by (apply fle_B2R; auto; [apply A|apply A']).
  destruct (prod_ok 0 ltac:(lia)) as [P0 Q0]. destruct (prod_ok 1 ltac:(lia)) as [P1 Q1]. destruct (prod_ok 2 ltac:(lia)) as [P2 Q2]. destruct (prod_ok 3 ltac:(lia)) as [P3 Q3].
  assert (PW : bd 31 (pow3 x) /\ bd 31 (pow3 y) /\ B2R (pow3 x) <= B2R (pow3 y)).
  { destruct POW as [W1 W2]. pose proof (W1 x A) as U. pose proof (W1 y A') as V. split; auto. split; auto. apply fle_B2R; [apply U|apply V|]. now apply W2. }
  destruct PW as (W1 & W2 & W3). assert (Z0 : 0 < bpow radix2 (-60)) by apply bpow_gt_0.
  destruct (bd_mul 20 10 _ _ ltac:(lia) P1 A) as [a1 b1]. destruct (bd_mul 20 10 _ _ ltac:(lia) P1 A') as [a1' b1'].
  destruct (bd_mul 10 10 _ _ ltac:(lia) A A) as [s t]. destruct (bd_mul 10 10 _ _ ltac:(lia) A' A') as [s' t'].
  destruct (bd_mul 20 20 _ _ ltac:(lia) P2 s) as [a2 b2]. destruct (bd_mul 20 20 _ _ ltac:(lia) P2 s') as [a2' b2'].
  destruct (bd_mul 20 31 _ _ ltac:(lia) P3 W1) as [a3 b3]. destruct (bd_mul 20 31 _ _ ltac:(lia) P3 W2) as [a3' b3'].
  assert (X0 : 0 <= B2R x) by apply A.
  assert (M1 : B2R (fmul (prod 1) x) <= B2R (fmul (prod 1) y)) by (rewrite b1, b1'; apply crnd_mono; apply Rmult_le_compat_l; lra).
  assert (MS : B2R (fmul x x) <= B2R (fmul y y)) by (rewrite t, t'; apply crnd_mono; apply Rmult_le_compat; lra).
  assert (M2 : B2R (fmul (prod 2) (fmul x x)) <= B2R (fmul (prod 2) (fmul y y))) by (rewrite b2, b2'; apply crnd_mono; apply Rmult_le_compat_l; lra).
  assert (M3 : B2R (fmul (prod 3) (pow3 x)) <= B2R (fmul (prod 3) (pow3 y))) by (rewrite b3, b3'; apply crnd_mono; apply Rmult_le_compat_l; lra).
  destruct (bd_add 51 _ _ ltac:(lia) (bd_weaken _ 51 _ P0 ltac:(lia)) (bd_weaken _ 51 _ a1 ltac:(lia))) as [u1 v1].
  destruct (bd_add 51 _ _ ltac:(lia) (bd_weaken _ 51 _ P0 ltac:(lia)) (bd_weaken _ 51 _ a1' ltac:(lia))) as [u1' v1'].
  destruct (bd_add 52 _ _ ltac:(lia) (bd_weaken _ 52 _ u1 ltac:(lia)) (bd_weaken _ 52 _ a2 ltac:(lia))) as [u2 v2].
  destruct (bd_add 52 _ _ ltac:(lia) (bd_weaken _ 52 _ u1' ltac:(lia)) (bd_weaken _ 52 _ a2' ltac:(lia))) as [u2' v2'].
  destruct (bd_add 53 _ _ ltac:(lia) (bd_weaken _ 53 _ u2 ltac:(lia)) (bd_weaken _ 53 _ a3 ltac:(lia))) as [u3 v3].
  destruct (bd_add 53 _ _ ltac:(lia) (bd_weaken _ 53 _ u2' ltac:(lia)) (bd_weaken _ 53 _ a3' ltac:(lia))) as [u3' v3'].
  split; [exact u3|]. split; [exact u3'|].
  assert (N1 : B2R (fadd (prod 0) (fmul (prod 1) x)) <= B2R (fadd (prod 0) (fmul (prod 1) y))) by (rewrite v1, v1'; apply crnd_mono; lra).
  assert (N2 : B2R (fadd (fadd (prod 0) (fmul (prod 1) x)) (fmul (prod 2) (fmul x x))) <= B2R (fadd (fadd (prod 0) (fmul (prod 1) y)) (fmul (prod 2) (fmul y y)))) by (rewrite v2, v2'; apply crnd_mono; lra).
  split; [|rewrite v3, v3'; apply crnd_mono; lra].
  assert (O1 : bpow radix2 (-60) <= B2R (fadd (prod 0) (fmul (prod 1) x))) by (rewrite v1, <- crnd_bpow by lia; apply crnd_mono; destruct a1 as [_ [a1 _]]; lra).
  assert (O2 : bpow radix2 (-60) <= B2R (fadd (fadd (prod 0) (fmul (prod 1) x)) (fmul (prod 2) (fmul x x)))) by (rewrite v2, <- crnd_bpow by lia; apply crnd_mono; destruct a2 as [_ [a2 _]]; lra).
  rewrite v3, <- crnd_bpow by lia. apply crnd_mono. destruct a3 as [_ [a3 _]]. lra.
Qed.
Lemma kelvin_ok d : bd 54 d -> bpow radix2 (-60) <= B2R d -> bd 60 (fdiv fone d) /\ B2R (fdiv fone d) = crnd (/ B2R d).
Proof.
  intros [F [A B]] C. assert (Z0 : 0 < bpow radix2 (-60)) by apply bpow_gt_0.
  destruct (fdiv_key fone d eq_refl F ltac:(lra)) as [N K]. assert (O : B2R fone = 1) by (rewrite <- key_fin; [apply key_fone|reflexivity]). rewrite O in K. unfold Rdiv in K. rewrite Rmult_1_l in K.
  assert (BB : bd 60 (fdiv fone d)).
  { apply bd_of; [lia|exact N|]. rewrite K. split; [apply crnd_ge0; left; apply Rinv_0_lt_compat; lra|]. rewrite <- crnd_bpow by lia. apply crnd_mono.
    change 60%Z with (- (-60))%Z. rewrite bpow_opp. apply Rinv_le; lra. }
  split; auto. now rewrite <- (bd_key _ _ BB).
Qed.
Lemma curve_val R : resistance R -> isfin (th_curve nplog pow3 R args) = true /\ B2R (th_curve nplog pow3 R args) = crnd (crnd (/ B2R (denom R)) - B2R T_kelvin_offset) /\
  - B2R T_kelvin_offset <= B2R (th_curve nplog pow3 R args) <= bpow radix2 60.
Proof.
  intros HR. destruct (denom_ok R R HR HR) as (D & _ & L & _); [apply fleb_refl, nan_fin, HR|]. destruct (kelvin_ok _ D L) as [K V]. destruct offset_val as [OF [O1 O2]].
  change (th_curve nplog pow3 R args) with (fsub (fdiv fone (denom R)) T_kelvin_offset).
  destruct (fsub_key _ T_kelvin_offset (proj1 K) OF) as [N E]. destruct K as [KF [K0 K1]].
  assert (B1 : crnd (B2R (fdiv fone (denom R)) - B2R T_kelvin_offset) <= bpow radix2 60) by (rewrite <- crnd_bpow by lia; apply crnd_mono; lra).
  assert (B2 : - B2R T_kelvin_offset <= crnd (B2R (fdiv fone (denom R)) - B2R T_kelvin_offset)) by (rewrite <- (crnd_B2R T_kelvin_offset), <- crnd_opp, crnd_B2R; apply crnd_mono; lra).
  assert (FF : isfin (fsub (fdiv fone (denom R)) T_kelvin_offset) = true).
  { apply fin_key; auto. rewrite E. pose proof (big_gt 60 ltac:(lia)). assert (274 < big) by (apply Rlt_trans with (bpow radix2 9); [simpl; lra|apply big_gt; lia]). lra. }
  split; [exact FF|]. rewrite key_fin in E by exact FF. rewrite E. split; [now rewrite V|]. split; [exact B2|exact B1].
Qed.
End Curve.

(** *** C108 *)
(** With positive parameters the modelled temperature of a thermistor is a number above
    absolute zero, which never rises with the resistance *)
Theorem C108_curve : forall nplog pow3 args R R', log_ok nplog -> pow3_ok pow3 -> length args = 8%nat -> Forall param args ->
  resistance R -> resistance R' -> fleb R R' = true ->
  fleb (th_curve nplog pow3 R' args) (th_curve nplog pow3 R args) = true /\
  isfin (th_curve nplog pow3 R args) = true /\ fleb (fopp T_kelvin_offset) (th_curve nplog pow3 R args) = true.
Proof.
  intros nplog pow3 args R R' LG PW LA FA HR HR' L.
  destruct (curve_val nplog pow3 LG PW args (conj LA FA) R HR) as (F & V & B1 & B2). destruct (curve_val nplog pow3 LG PW args (conj LA FA) R' HR') as (F' & V' & B1' & B2').
  destruct (denom_ok nplog pow3 LG PW args (conj LA FA) R R' HR HR' L) as (D & D' & E1 & E2). assert (Z0 : 0 < bpow radix2 (-60)) by apply bpow_gt_0.
  split; [|split; [exact F|]].
  - apply fleb_spec. split; [now apply nan_fin|]. split; [now apply nan_fin|]. rewrite !key_fin by assumption. rewrite V, V'. apply crnd_mono. apply Rplus_le_compat_r. apply crnd_mono. apply Rinv_le; lra.
  - destruct offset_val as [OF _]. assert (OO : isfin (fopp T_kelvin_offset) = true) by (vm_compute; reflexivity).
    apply fleb_spec. split; [now apply nan_fin|]. split; [now apply nan_fin|]. rewrite !key_fin by assumption. unfold fopp. rewrite B2R_Bopp. exact B1.
Qed.

(** ** How far the curve is from the formula *)
Definition q52 : R := 1 + bpow radix2 (-52).
(** x and y differ by at most n steps of relative size 2^-52 *)
Definition near (n : nat) (x y : R) : Prop := 0 < x /\ 0 < y /\ x <= y * q52 ^ n /\ y <= x * q52 ^ n.
Lemma q52_gt : 1 < q52. Proof. unfold q52. assert (0 < bpow radix2 (-52)) by apply bpow_gt_0. lra. Qed.
Lemma q52_pow n : 1 <= q52 ^ n. Proof. apply pow_R1_Rle. left. apply q52_gt. Qed.
Lemma near_refl x : 0 < x -> near 0 x x. Proof. intros H. unfold near. cbn [pow]. lra. Qed.
Lemma near_weaken n m x y : near n x y -> (n <= m)%nat -> near m x y.
Proof.
  intros (X & Y & A & B) L. assert (P : q52 ^ n <= q52 ^ m) by (apply Rle_pow; [left; apply q52_gt|exact L]). split; auto. split; auto. split; [apply Rle_trans with (1 := A)|apply Rle_trans with (1 := B)]; apply Rmult_le_compat_l; lra.
Qed.
Lemma near_trans n m x y z : near n x y -> near m y z -> near (n + m) x z.
Proof.
  intros (X & Y & A & B) (_ & Z & C & D). rewrite <- (Nat.add_comm m n). assert (P := q52_pow n). assert (Q := q52_pow m). split; auto. split; auto. rewrite pow_add. split.
  - apply Rle_trans with (1 := A). rewrite <- Rmult_assoc. apply Rmult_le_compat_r; lra.
  - apply Rle_trans with (1 := D). replace (x * (q52 ^ m * q52 ^ n)) with (x * q52 ^ n * q52 ^ m) by ring. apply Rmult_le_compat_r; lra.
Qed.
Lemma near_mult n m x y u v : near n x y -> near m u v -> near (n + m) (x * u) (y * v).
Proof.
  intros (X & Y & A & B) (U & V & C & D). split; [now apply Rmult_lt_0_compat|]. split; [now apply Rmult_lt_0_compat|]. rewrite pow_add. split.
  - replace (y * v * (q52 ^ n * q52 ^ m)) with ((y * q52 ^ n) * (v * q52 ^ m)) by ring. apply Rmult_le_compat; lra.
  - replace (x * u * (q52 ^ n * q52 ^ m)) with ((x * q52 ^ n) * (u * q52 ^ m)) by ring. apply Rmult_le_compat; lra.
Qed.
Lemma near_plus n x y u v : near n x y -> near n u v -> near n (x + u) (y + v).
Proof. intros (X & Y & A & B) (U & V & C & D). unfold near. lra. Qed.
Lemma near_inv n x y : near n x y -> near n (/ x) (/ y).
Proof.
  intros (X & Y & A & B). assert (P := q52_pow n). assert (IX := Rinv_0_lt_compat _ X). assert (IY := Rinv_0_lt_compat _ Y). split; auto. split; auto. split.
  - apply Rmult_le_reg_l with (x * y); [now apply Rmult_lt_0_compat|]. replace (x * y * / x) with y by (field; lra). replace (x * y * (/ y * q52 ^ n)) with (x * q52 ^ n) by (field; lra). exact B.
  - apply Rmult_le_reg_l with (x * y); [now apply Rmult_lt_0_compat|]. replace (x * y * / y) with x by (field; lra). replace (x * y * (/ x * q52 ^ n)) with (y * q52 ^ n) by (field; lra). exact A.
Qed.
Lemma near_rnd r : bpow radix2 (-1000) <= r <= bpow radix2 1000 -> near 1 (crnd r) r.
Proof.
  intros [A B]. assert (Z : 0 < bpow radix2 (-1000)) by apply bpow_gt_0.
  assert (E : Rabs (rnd r - r) <= bpow radix2 (-53) * r).
  { unfold rnd. fold fexp64. rewrite fexp64_eq. apply Rle_trans with (/ 2 * bpow radix2 (-53 + 1) * Rabs r).
    - apply relative_error_N_FLT; [reflexivity|]. rewrite Rabs_pos_eq by lra. apply Rle_trans with (2 := A). apply bpow_le. lia.
    - rewrite Rabs_pos_eq by lra. change (-53 + 1)%Z with (1 + -53)%Z. rewrite bpow_plus. change (bpow radix2 1) with 2. lra. }
  apply Rabs_le_inv in E. assert (S : bpow radix2 (-52) = 2 * bpow radix2 (-53)) by (change (-52)%Z with (1 + -53)%Z; rewrite bpow_plus; reflexivity).
  assert (T : 0 < bpow radix2 (-53)) by apply bpow_gt_0. assert (W : bpow radix2 (-53) <= / 4) by (change (/ 4) with (bpow radix2 (-2)); apply bpow_le; lia).
  assert (C : crnd r = rnd r). { unfold crnd. apply clamp_id. assert (D := big_gt 1001 ltac:(lia)). change 1001%Z with (1 + 1000)%Z in D. rewrite bpow_plus in D. change (bpow radix2 1) with 2 in D. nra. }
  rewrite C. unfold near, q52. rewrite S. cbn [pow]. set (e := bpow radix2 (-53)) in *. nra.
Qed.
Lemma near_range n x y e : near n x y -> (n <= 20)%nat -> bpow radix2 (e + 1) <= y -> bpow radix2 e <= x.
Proof.
  intros (X & Y & A & B) N L. assert (P : q52 ^ n <= 2).
  { apply Rle_trans with (q52 ^ 20); [apply Rle_pow; [left; apply q52_gt|exact N]|]. unfold q52. assert (W : bpow radix2 (-52) <= / 1024) by (change (/ 1024) with (bpow radix2 (-10)); apply bpow_le; lia). assert (0 < bpow radix2 (-52)) by apply bpow_gt_0.
    apply Rle_trans with ((1 + / 1024) ^ 20); [apply pow_incr; lra|lra]. }
  rewrite bpow_plus in L. change (bpow radix2 1) with 2 in L. nra.
Qed.
Lemma abs_aux K o : 0 < K -> 273 <= o <= 274 -> Rabs (K - o) <= K + 274.
Proof. intros. apply Rabs_le. lra. Qed.
(** what is wanted of the third power here: the exact one, up to a relative error *)
Definition pow3_near (pow3 : f64 -> f64) : Prop := forall x, bd 10 x -> bpow radix2 (-20) <= B2R x -> Rabs (B2R (pow3 x) - B2R x ^ 3) <= B2R x ^ 3 * bpow radix2 (-50).
Lemma pow3_is_near pow3 x : pow3_near pow3 -> bd 10 x -> bpow radix2 (-20) <= B2R x -> near 8 (B2R (pow3 x)) (B2R x ^ 3).
Proof.
  intros P X X1. pose proof (P x X X1) as E. assert (X0 : 0 < B2R x) by (apply Rlt_le_trans with (2 := X1); apply bpow_gt_0). apply Rabs_le_inv in E. assert (Y : 0 < B2R x ^ 3) by now apply pow_lt. set (y := B2R x ^ 3) in *. set (z := B2R (pow3 x)) in *.
  assert (S : bpow radix2 (-50) = 4 * bpow radix2 (-52)) by (change (-50)%Z with (2 + -52)%Z; rewrite bpow_plus; reflexivity). rewrite S in E.
  assert (T : 0 < bpow radix2 (-52)) by apply bpow_gt_0. assert (W : bpow radix2 (-52) <= / 1024) by (change (/ 1024) with (bpow radix2 (-10)); apply bpow_le; lia).
  set (e := bpow radix2 (-52)) in *. assert (Q : 1 + 8 * e <= q52 ^ 8). { unfold q52. fold e. pose proof (poly 8 e ltac:(lra)) as H. change (INR 8) with (1 + 1 + 1 + 1 + 1 + 1 + 1 + 1) in H. lra. }
  assert (Z0 : 0 < z) by nra. split; auto. split; auto. split; [apply Rle_trans with (y * (1 + 8 * e)); [nra|apply Rmult_le_compat_l; lra]|apply Rle_trans with (z * (1 + 8 * e)); [nra|apply Rmult_le_compat_l; lra]].
Qed.
Lemma near_mul n m x y u v a b : bd a x -> bd b u -> (-500 <= a + b < 1000)%Z -> near n (B2R x) y -> near m (B2R u) v -> bpow radix2 (-1000) <= B2R x * B2R u -> near (S (n + m)) (B2R (fmul x u)) (y * v).
Proof.
  intros X U E N M L. destruct (bd_mul a b x u ltac:(lia) X U) as [_ ->]. change (S (n + m)) with (1 + (n + m))%nat. apply near_trans with (B2R x * B2R u); [|now apply near_mult].
  apply near_rnd. split; auto. apply Rle_trans with (bpow radix2 (a + b)); [|apply bpow_le; lia]. rewrite bpow_plus. destruct X as [_ X], U as [_ U]. apply Rmult_le_compat; lra.
Qed.
Lemma near_add n x y u v a : bd a x -> bd a u -> (-500 <= a < 1000)%Z -> near n (B2R x) y -> near n (B2R u) v -> bpow radix2 (-1000) <= B2R x -> near (S n) (B2R (fadd x u)) (y + v).
Proof.
  intros X U E N M L. destruct (bd_add a x u ltac:(lia) X U) as [_ ->]. change (S n) with (1 + n)%nat. apply near_trans with (B2R x + B2R u); [|now apply near_plus].
  apply near_rnd. split; [destruct U as [_ [U _]]; lra|]. destruct X as [_ X], U as [_ U]. apply Rle_trans with (bpow radix2 (a + 1)); [|apply bpow_le; lia]. rewrite bpow_plus. change (bpow radix2 1) with 2. lra.
Qed.
Lemma mult_low a b x y : bpow radix2 a <= x -> bpow radix2 b <= y -> bpow radix2 (a + b) <= x * y.
Proof. intros H K. rewrite bpow_plus. apply Rmult_le_compat; auto; apply bpow_ge_0. Qed.
Lemma denom_near nplog pow3 args R : log_ok nplog -> pow3_ok pow3 -> pow3_near pow3 -> length args = 8%nat -> Forall param args -> resistance R -> bpow radix2 (-20) <= B2R (nplog R) ->
  let p k := B2R (nth k args fzero) in let L := B2R (nplog R) in
  near 14 (B2R (denom nplog pow3 args R)) (p 0%nat * p 4%nat + p 1%nat * p 5%nat * L + p 2%nat * p 6%nat * L ^ 2 + p 3%nat * p 7%nat * L ^ 3).
Proof.
  intros LG PW PN LA FA HR LL p L. pose proof (res_log _ _ LG HR) as A. assert (L0 : 0 < L) by (apply Rlt_le_trans with (2 := LL); apply bpow_gt_0).
  assert (PP : forall k, (k < 4)%nat -> bd 20 (prod args k) /\ bpow radix2 (-60) <= B2R (prod args k) /\ near 1 (B2R (prod args k)) (p k * p (k + 4)%nat)).
  { intros k K. destruct (prod_ok args (conj LA FA) k K) as [B1 B2]. split; auto. split; auto. rewrite Forall_forall in FA.
    assert (P : forall i, (i < 8)%nat -> param (nth i args fzero)) by (intros i I; apply FA, nth_In; lia). pose proof (P k ltac:(lia)) as C. pose proof (P (k + 4)%nat ltac:(lia)) as D.
    assert (0 < bpow radix2 (-30)) by apply bpow_gt_0.
    unfold prod. apply (near_mul 0 0 _ _ _ _ 10 10); [now apply param_bd|now apply param_bd|lia|apply near_refl; destruct C as [_ [C _]]; fold (p k) in C; lra|apply near_refl; destruct D as [_ [D _]]; fold (p (k + 4)%nat) in D; lra|].
    destruct C as [_ [C _]], D as [_ [D _]]. apply Rle_trans with (2 := mult_low _ _ _ _ C D). apply bpow_le. lia. }
  destruct (PP 0%nat ltac:(lia)) as (P0 & Q0 & N0). destruct (PP 1%nat ltac:(lia)) as (P1 & Q1 & N1). destruct (PP 2%nat ltac:(lia)) as (P2 & Q2 & N2). destruct (PP 3%nat ltac:(lia)) as (P3 & Q3 & N3).
  unfold denom. set (x := nplog R) in *. destruct PW as [W1 _]. pose proof (W1 x A) as W. pose proof (pow3_is_near pow3 x PN A LL) as NW.
  assert (NX : near 0 (B2R x) L) by now apply near_refl.
  destruct (bd_mul 20 10 _ _ ltac:(lia) P1 A) as [a1 _]. destruct (bd_mul 10 10 _ _ ltac:(lia) A A) as [s _]. destruct (bd_mul 20 20 _ _ ltac:(lia) P2 s) as [a2 _]. destruct (bd_mul 20 31 _ _ ltac:(lia) P3 W) as [a3 _].
  assert (NS : near 1 (B2R (fmul x x)) (L ^ 2)).
  { replace (L ^ 2) with (L * L) by ring. apply (near_mul 0 0 _ _ _ _ 10 10 A A); auto; [lia|]. apply Rle_trans with (2 := mult_low _ _ _ _ LL LL). apply bpow_le. lia. }
  assert (LS : bpow radix2 (-41) <= B2R (fmul x x)).
  { apply (near_range 1 _ _ (-41) NS); [lia|]. replace (L ^ 2) with (L * L) by ring. change (-41 + 1)%Z with (-20 + -20)%Z. now apply mult_low. }
  assert (LW : bpow radix2 (-61) <= B2R (pow3 x)).
  { apply (near_range 8 _ _ (-61) NW); [lia|]. fold L. replace (L ^ 3) with (L * L * L) by ring. change (-61 + 1)%Z with (-20 + -20 + -20)%Z. now apply mult_low; [apply mult_low|]. }
  assert (T1 : near 2 (B2R (fmul (prod args 1) x)) (p 1%nat * p 5%nat * L)).
  { apply (near_mul 1 0 _ _ _ _ 20 10 P1 A); auto; [lia|]. apply Rle_trans with (2 := mult_low _ _ _ _ Q1 LL). apply bpow_le. lia. }
  assert (T2 : near 3 (B2R (fmul (prod args 2) (fmul x x))) (p 2%nat * p 6%nat * L ^ 2)).
  { apply (near_mul 1 1 _ _ _ _ 20 20 P2 s); auto; [lia|]. apply Rle_trans with (2 := mult_low _ _ _ _ Q2 LS). apply bpow_le. lia. }
  assert (T3 : near 10 (B2R (fmul (prod args 3) (pow3 x))) (p 3%nat * p 7%nat * L ^ 3)).
  { apply (near_mul 1 8 _ _ _ _ 20 31 P3 W); auto; [lia|]. apply Rle_trans with (2 := mult_low _ _ _ _ Q3 LW). apply bpow_le. lia. }
  assert (Z1000 : bpow radix2 (-1000) <= bpow radix2 (-60)) by (apply bpow_le; lia).
  assert (S1 := near_add 2 _ _ _ _ 51 (bd_weaken _ 51 _ P0 ltac:(lia)) (bd_weaken _ 51 _ a1 ltac:(lia)) ltac:(lia) (near_weaken _ 2 _ _ N0 ltac:(lia)) T1 ltac:(lra)).
  destruct (bd_add 51 _ _ ltac:(lia) (bd_weaken _ 51 _ P0 ltac:(lia)) (bd_weaken _ 51 _ a1 ltac:(lia))) as [u1 v1].
  assert (O1 : bpow radix2 (-60) <= B2R (fadd (prod args 0) (fmul (prod args 1) x))) by (rewrite v1, <- crnd_bpow by lia; apply crnd_mono; destruct a1 as [_ [a1 _]]; lra).
  assert (S2 := near_add 3 _ _ _ _ 52 (bd_weaken _ 52 _ u1 ltac:(lia)) (bd_weaken _ 52 _ a2 ltac:(lia)) ltac:(lia) S1 T2 ltac:(lra)).
  destruct (bd_add 52 _ _ ltac:(lia) (bd_weaken _ 52 _ u1 ltac:(lia)) (bd_weaken _ 52 _ a2 ltac:(lia))) as [u2 v2].
  assert (O2 : bpow radix2 (-60) <= B2R (fadd (fadd (prod args 0) (fmul (prod args 1) x)) (fmul (prod args 2) (fmul x x)))) by (rewrite v2, <- crnd_bpow by lia; apply crnd_mono; destruct a2 as [_ [a2 _]]; lra).
  assert (S3 := near_add 10 _ _ _ _ 53 (bd_weaken _ 53 _ u2 ltac:(lia)) (bd_weaken _ 53 _ a3 ltac:(lia)) ltac:(lia) (near_weaken _ 10 _ _ S2 ltac:(lia)) T3 ltac:(lra)).
  apply (near_weaken 11); [exact S3|lia].
Qed.
(** The curve is the reciprocal of the cubic polynomial in the logarithm of the resistance
    whose coefficients are the products of a common parameter with the thermistor's own
    one, less 273.15, up to rounding *)
Theorem C108_formula : forall nplog pow3 A B C D a b c d ohms, log_ok nplog -> pow3_ok pow3 -> pow3_near pow3 -> Forall param [A; B; C; D; a; b; c; d] ->
  resistance ohms -> bpow radix2 (-20) <= B2R (nplog ohms) ->
  let L := B2R (nplog ohms) in let kelvin := / (B2R A * B2R a + B2R B * B2R b * L + B2R C * B2R c * L ^ 2 + B2R D * B2R d * L ^ 3) in
  Rabs (B2R (th_curve nplog pow3 ohms [A; B; C; D; a; b; c; d]) - (kelvin - 27315 / 100)) <= (kelvin + 274) * bpow radix2 (-47).
Proof.
  intros nplog pow3 A B C D a b c d ohms LG PW PN FA HR LL L kelvin. set (args := [A; B; C; D; a; b; c; d]) in *. assert (LA : length args = 8%nat) by reflexivity.
  pose proof (denom_near nplog pow3 args ohms LG PW PN LA FA HR LL) as N. cbv zeta in N. cbn [args nth] in N. fold L in N. apply near_inv in N. fold kelvin in N.
  destruct (denom_ok nplog pow3 LG PW args (conj LA FA) ohms ohms HR HR) as (DB & _ & DL & _); [apply fleb_refl, nan_fin, HR|].
  destruct (curve_val nplog pow3 LG PW args (conj LA FA) ohms HR) as (_ & V & _).
  assert (Z60 : 0 < bpow radix2 (-60)) by apply bpow_gt_0.
  assert (RG : bpow radix2 (-60) <= / B2R (denom nplog pow3 args ohms) <= bpow radix2 60).
  { split; [change (-60)%Z with (- (60))%Z|change 60%Z with (- (-60))%Z]; rewrite bpow_opp; apply Rinv_le; try apply bpow_gt_0; try lra. destruct DB as [_ [_ DB]]. apply Rle_trans with (1 := DB). apply bpow_le. lia. }
  assert (NR : near 1 (crnd (/ B2R (denom nplog pow3 args ohms))) (/ B2R (denom nplog pow3 args ohms))).
  { apply near_rnd. split; [apply Rle_trans with (2 := proj1 RG)|apply Rle_trans with (1 := proj2 RG)]; apply bpow_le; lia. }
  pose proof (near_trans _ _ _ _ _ NR N) as NK. change (1 + 14)%nat with 15%nat in NK. rewrite V. set (K := crnd (/ B2R (denom nplog pow3 args ohms))) in *.
  assert (KB : K <= bpow radix2 60) by (unfold K; rewrite <- crnd_bpow by lia; apply crnd_mono; lra).
  destruct NK as (K0 & k0 & K1 & K2). set (e := bpow radix2 (-52)).
  assert (E47 : bpow radix2 (-47) = 32 * e) by (unfold e; change (-47)%Z with (5 + -52)%Z; rewrite bpow_plus; reflexivity).
  assert (e0 : 0 < e) by apply bpow_gt_0. assert (e1 : e <= / 1048576) by (change (/ 1048576) with (bpow radix2 (-20)); apply bpow_le; lia).
  assert (Q15 : q52 ^ 15 <= 1 + 16 * e). { unfold q52. fold e. assert (G : forall n, (n <= 15)%nat -> (1 + e) ^ n <= 1 + INR n * e + INR n * INR n * e * e).
    { induction n as [|n IH]; intros LN; [cbn; lra|]. assert (INR n <= 15) by (replace 15 with (INR 15) by (simpl; lra); apply le_INR; lia). assert (0 <= INR n) by apply pos_INR. rewrite S_INR. cbn [pow]. specialize (IH ltac:(lia)).
      apply Rle_trans with ((1 + e) * (1 + INR n * e + INR n * INR n * e * e)); [apply Rmult_le_compat_l; lra|]. set (m := INR n) in *. assert (m * m * e <= 1) by nra. assert (0 <= m * m * e * e) by (apply Rmult_le_pos; [apply Rmult_le_pos; [nra|lra]|lra]). nra. }
    specialize (G 15%nat ltac:(lia)). change (INR 15) with (1 + 1 + 1 + 1 + 1 + 1 + 1 + 1 + 1 + 1 + 1 + 1 + 1 + 1 + 1) in G. nra. }
  assert (D1 : Rabs (K - kelvin) <= 17 * e * kelvin). { apply Rabs_le. split; [|assert (kelvin * q52 ^ 15 <= kelvin * (1 + 16 * e)) by (apply Rmult_le_compat_l; lra); nra]. assert (K * q52 ^ 15 <= K * (1 + 16 * e)) by (apply Rmult_le_compat_l; lra). assert (K <= 2 * kelvin) by nra. nra. }
  assert (OV : Rabs (B2R T_kelvin_offset - 27315 / 100) <= e * 274 /\ 273 <= B2R T_kelvin_offset <= 274).
  { split; [|apply offset_val]. destruct (flit_val 4805305618032230 (-44)) as [_ OV]; [lia|lia|]. unfold T_kelvin_offset. rewrite OV. unfold e. change (bpow radix2 (-44)) with (/ 17592186044416). change (bpow radix2 (-52)) with (/ 4503599627370496). apply Rabs_le. lra. }
  destruct OV as [OV OR]. set (o := B2R T_kelvin_offset) in *.
  assert (RS : Rabs (crnd (K - o) - (K - o)) <= e * (K + 274)).
  { assert (CK : crnd (K - o) = rnd (K - o)). { unfold crnd. apply clamp_id. assert (H1 : rnd (- bpow radix2 61) <= rnd (K - o) <= rnd (bpow radix2 61)).
      { assert (B9 : 274 <= bpow radix2 60) by (apply Rle_trans with (bpow radix2 9); [simpl; lra|apply bpow_le; lia]). assert (B61 : bpow radix2 61 = 2 * bpow radix2 60) by (change 61%Z with (1 + 60)%Z; rewrite bpow_plus; reflexivity).
        split; apply round_le; try apply fexp_correct; try reflexivity; try typeclasses eauto; lra. }
      assert (H2 : rnd (bpow radix2 61) = bpow radix2 61) by (apply round_generic; [typeclasses eauto|]; apply generic_format_bpow; vm_compute; discriminate).
      assert (H3 : rnd (- bpow radix2 61) = - bpow radix2 61) by (apply round_generic; [typeclasses eauto|]; apply generic_format_opp, generic_format_bpow; vm_compute; discriminate).
      rewrite H2, H3 in H1. pose proof (big_gt 61 ltac:(lia)). lra. }
    rewrite CK. unfold rnd. fold fexp64. rewrite fexp64_eq. destruct (error_N_FLT radix2 (-1074) 53 ltac:(lia) (fun x => negb (Z.even x)) (K - o)) as (eps & eta & X1 & X2 & _ & X3).
    rewrite X3. change (Rabs eps <= / 2 * e) in X1. assert (X4 : bpow radix2 (-1074) <= e) by (apply bpow_le; lia). idtac. apply Rabs_le_inv in X1. apply Rabs_le_inv in X2.
    assert (X5 : Rabs (K - o) <= K + 274) by now apply abs_aux. assert (X6 : Rabs ((K - o) * eps) <= (K + 274) * (/ 2 * e)) by (rewrite Rabs_mult; apply Rmult_le_compat; try apply Rabs_pos; auto; apply Rabs_le; lra).
    apply Rabs_le_inv in X6. replace ((K - o) * (1 + eps) + eta - (K - o)) with ((K - o) * eps + eta) by ring. apply Rabs_le. assert (e * 1 <= e * (K + 273)) by (apply Rmult_le_compat_l; lra). lra. }
  rewrite E47. apply Rabs_le_inv in D1. apply Rabs_le_inv in OV. apply Rabs_le_inv in RS. apply Rabs_le.
  assert (K <= 2 * kelvin) by nra. nra.
Qed.

(** ** The thermistor example's evaluator *)
(** np.sum adds each number once *)
Fixpoint leaves (t : tree) : list nat := match t with Leaf k => [k] | Node a b => leaves a ++ leaves b end.
Definition order_ok (order : nat -> tree) : Prop := forall n, Permutation.Permutation (leaves (order (S n))) (seq 0 (S n)).
(** a reading: weight from 0 to 32, a moderate temperature, six resistances of an ohm or more *)
Definition reading_ok (x : reading) : Prop :=
  bd 5 (weight x) /\ isfin (col 0 x) = true /\ Rabs (B2R (col 0 x)) <= bpow radix2 60 /\ forall k, (1 <= k <= 6)%nat -> resistance (col k x).

Fixpoint height (t : tree) : nat := match t with Leaf _ => O | Node a b => S (Nat.max (height a) (height b)) end.
Lemma height_leaves t : (height t < length (leaves t))%nat.
Proof. induction t as [k|a IHa b IHb]; cbn [height leaves]; [cbn; lia|]. rewrite app_length. lia. Qed.
Lemma tsum_bound e l : (forall k, (k < length l)%nat -> isfin (nth k l fzero) = true /\ Rabs (B2R (nth k l fzero)) <= bpow radix2 e) -> (-1074 <= e)%Z ->
  forall t, (e + Z.of_nat (height t) < 1024)%Z -> isfin (tsum t l) = true /\ Rabs (B2R (tsum t l)) <= bpow radix2 (e + Z.of_nat (height t)).
Proof.
  intros H E0. induction t as [k|a IHa b IHb]; intros E.
  - cbn [tsum height Z.of_nat] in *. rewrite Z.add_0_r. destruct (Nat.lt_ge_cases k (length l)) as [L|L]; [auto|]. rewrite nth_overflow by exact L. split; [reflexivity|]. simpl. rewrite Rabs_R0. apply bpow_ge_0.
  - cbn [tsum height] in *. rewrite Nat2Z.inj_succ, Nat2Z.inj_max in *. destruct IHa as [FA BA]; [lia|]. destruct IHb as [FB BB]; [lia|].
    set (m := (e + Z.max (Z.of_nat (height a)) (Z.of_nat (height b)))%Z) in *. replace (e + Z.succ (Z.max (Z.of_nat (height a)) (Z.of_nat (height b))))%Z with (m + 1)%Z in * by (unfold m; lia).
    assert (A1 : Rabs (B2R (tsum a l)) <= bpow radix2 m) by (apply Rle_trans with (1 := BA); apply bpow_le; unfold m; lia).
    assert (B1 : Rabs (B2R (tsum b l)) <= bpow radix2 m) by (apply Rle_trans with (1 := BB); apply bpow_le; unfold m; lia).
    destruct (fadd_key _ _ FA FB) as [N K]. apply Rabs_le_inv in A1, B1.
    assert (P : bpow radix2 (m + 1) = 2 * bpow radix2 m) by (rewrite bpow_plus; change (bpow radix2 1) with 2; ring).
    assert (C : - bpow radix2 (m + 1) <= key (fadd (tsum a l) (tsum b l)) <= bpow radix2 (m + 1)).
    { rewrite K. rewrite <- (crnd_bpow (m + 1)) by (unfold m in *; lia). rewrite <- crnd_opp. split; apply crnd_mono; lra. }
    assert (F : isfin (fadd (tsum a l) (tsum b l)) = true) by (apply fin_key; auto; pose proof (big_gt (m + 1) ltac:(lia)); lra).
    split; [exact F|]. rewrite key_fin in C by exact F. now apply Rabs_le.
Qed.
Lemma nn_nonneg x : nn x <-> fleb fzero x = true.
Proof. split; [intros [N K]; apply fleb_spec; rewrite key_fzero; auto|]. intros H. apply fleb_spec in H as (_ & N & K). rewrite key_fzero in K. split; auto. Qed.
Lemma sub_fin e x y : (0 <= e < 1023)%Z -> isfin x = true -> isfin y = true -> Rabs (B2R x) <= bpow radix2 e -> Rabs (B2R y) <= bpow radix2 e ->
  isfin (fsub x y) = true /\ Rabs (B2R (fsub x y)) <= bpow radix2 (e + 1).
Proof.
  intros E FX FY X Y. destruct (fsub_key x y FX FY) as [N K]. apply Rabs_le_inv in X, Y.
  assert (P : bpow radix2 (e + 1) = 2 * bpow radix2 e) by (rewrite bpow_plus; change (bpow radix2 1) with 2; ring).
  assert (C : - bpow radix2 (e + 1) <= key (fsub x y) <= bpow radix2 (e + 1)) by (rewrite K, <- (crnd_bpow (e + 1)) by lia; rewrite <- crnd_opp; split; apply crnd_mono; lra).
  assert (F : isfin (fsub x y) = true) by (apply fin_key; auto; pose proof (big_gt (e + 1) ltac:(lia)); lra).
  split; [exact F|]. rewrite key_fin in C by exact F. now apply Rabs_le.
Qed.
Lemma sq_bd e d : (0 <= e < 500)%Z -> isfin d = true -> Rabs (B2R d) <= bpow radix2 e -> bd (e + e) (fmul d d).
Proof.
  intros E F D. destruct (fmul_key d d F F) as [N K]. apply bd_of; [lia|exact N|]. rewrite K. split; [apply crnd_ge0; nra|].
  rewrite <- crnd_bpow by lia. apply crnd_mono. rewrite bpow_plus. apply Rabs_le_inv in D. assert (0 <= bpow radix2 e) by apply bpow_ge_0. nra.
Qed.
Definition own_args (values : list f64) (k : nat) : list f64 := firstn 4 values ++ firstn 4 (skipn (4 * k) values).
Lemma own_args_ok values k : length values = 28%nat -> Forall param values -> (1 <= k <= 6)%nat -> length (own_args values k) = 8%nat /\ Forall param (own_args values k).
Proof.
  intros L F K. unfold own_args. split; [rewrite app_length, !firstn_length, skipn_length; lia|].
  rewrite Forall_forall in *. intros x I. apply F. apply in_app_or in I as [I|I].
  - rewrite <- (firstn_skipn 4 values). apply in_or_app. now left.
  - rewrite <- (firstn_skipn (4 * k) values). apply in_or_app. right. rewrite <- (firstn_skipn 4 (skipn (4 * k) values)). apply in_or_app. now left.
Qed.
Lemma th_call_eq nplog pow3 pow4 order data values x : length values = 28%nat ->
  th_call nplog pow3 pow4 order data values x = Ok (th_eval x (map (fun k => th_part nplog pow3 order data k (own_args values k)) (seq 1 6))
    (map (fun j => pow4 (tsum (order 6%nat) (map (fun k => nplog (nth (4 * k + j) values fzero)) (seq 1 6)))) (seq 0 4))).
Proof.
  intros L. unfold th_call. assert (E : collect (map (values2args values) (seq 1 6)) = Ok (map (own_args values) (seq 1 6))).
  { cbn [seq map collect]. rewrite !C74_args by (assumption || lia). reflexivity. }
  rewrite E. cbn [bind]. f_equal.
Qed.
Section Eval.
Variables nplog pow3 pow4 : f64 -> f64.
Variable order : nat -> tree.
Hypothesis LOG : log_ok nplog.
Hypothesis POW3 : pow3_ok pow3.
Hypothesis POW4 : pow4_ok pow4.
Hypothesis ORDER : order_ok order.
Variable values : list f64.
Hypothesis VALUES : length values = 28%nat /\ Forall param values.

Lemma part_nonneg data k : Forall reading_ok data -> (1 <= k <= 6)%nat -> nonneg (th_part nplog pow3 order data k (own_args values k)).
Proof.
  intros D K. apply nn_nonneg. unfold th_part. apply nn_tsum. apply Forall_forall. intros y I. apply in_map_iff in I as (x & <- & I).
  rewrite Forall_forall in D. destruct (D x I) as (W & T1 & T2 & RS). specialize (RS k K). destruct VALUES as [VL VF].
  destruct (curve_val nplog pow3 LOG POW3 _ (own_args_ok values k VL VF K) _ RS) as (CF & _ & C1 & C2).
  assert (CB : Rabs (B2R (th_curve nplog pow3 (col k x) (own_args values k))) <= bpow radix2 60).
  { apply Rabs_le. destruct offset_val as [_ [O1 O2]]. assert (bpow radix2 9 <= bpow radix2 60) by (apply bpow_le; lia). assert (bpow radix2 9 = 512) by reflexivity. lra. }
  destruct (sub_fin 60 _ _ ltac:(lia) CF T1 CB T2) as [SF SB]. pose proof (sq_bd 61 _ ltac:(lia) SF SB) as Q.
  cbv zeta. destruct (bd_mul 5 122 _ _ ltac:(lia) W Q) as [M _]. apply nn_fin; apply M.
Qed.
Lemma drift_fine j : (j < 4)%nat -> drift_ok (pow4 (tsum (order 6%nat) (map (fun k => nplog (nth (4 * k + j) values fzero)) (seq 1 6)))).
Proof.
  intros J. destruct VALUES as [VL VF]. set (l := map _ _).
  assert (B : forall k, (k < length l)%nat -> isfin (nth k l fzero) = true /\ Rabs (B2R (nth k l fzero)) <= bpow radix2 10).
  { intros k K. assert (I : In (nth k l fzero) l) by now apply nth_In. unfold l in I at 2. apply in_map_iff in I as (i & <- & I). apply in_seq in I.
    assert (P : param (nth (4 * i + j) values fzero)) by (rewrite Forall_forall in VF; apply VF, nth_In; lia).
    destruct LOG as (L1 & _). destruct P as [PF [P1 _]]. apply L1; auto. apply Rlt_le_trans with (2 := P1). apply bpow_gt_0. }
  assert (H : (height (order 6%nat) < 6)%nat) by (pose proof (height_leaves (order 6%nat)) as X; rewrite (Permutation.Permutation_length (ORDER 5%nat)) in X; exact X).
  destruct (tsum_bound 10 l B ltac:(lia) (order 6%nat) ltac:(lia)) as [F A].
  assert (Q : bd 100 (pow4 (tsum (order 6%nat) l))) by (apply POW4; auto; apply Rle_trans with (1 := A); apply bpow_le; lia).
  split; [|apply Q]. apply nn_nonneg. apply nn_fin; apply Q.
Qed.
End Eval.

(** With good readings, any parameters within the bounds have an SSE that is a number
    not below zero, so that an evaluation never ends the run; a threshold makes no
    difference to whether it is exceeded *)
Theorem C108_thermistor : forall nplog pow3 pow4 order data values, log_ok nplog -> pow3_ok pow3 -> pow4_ok pow4 -> order_ok order ->
  Forall reading_ok data -> length values = 28%nat -> Forall param values ->
  exists s, th_call nplog pow3 pow4 order data values None = Ok s /\ fleb fzero s = true /\
  forall x, exists s', th_call nplog pow3 pow4 order data values (Some x) = Ok s' /\ fleb fzero s' = true /\ fltb x s' = fltb x s /\ (fltb x s = false -> s' = s).
Proof.
  intros nplog pow3 pow4 order data values LG P3 P4 OR D VL VF.
  set (parts := map (fun k => th_part nplog pow3 order data k (own_args values k)) (seq 1 6)).
  set (drifts := map (fun j => pow4 (tsum (order 6%nat) (map (fun k => nplog (nth (4 * k + j) values fzero)) (seq 1 6)))) (seq 0 4)).
  assert (HP : Forall nonneg parts).
  { apply Forall_forall. intros y I. apply in_map_iff in I as (k & <- & I). apply in_seq in I. apply (part_nonneg nplog pow3 order LG P3 values (conj VL VF)); [exact D|lia]. }
  assert (HD : Forall drift_ok drifts).
  { apply Forall_forall. intros y I. apply in_map_iff in I as (j & <- & I). apply in_seq in I. apply (drift_fine nplog pow4 order LG P4 OR values (conj VL VF)). lia. }
  assert (NN : forall x, nonneg (th_eval x parts drifts)).
  { intros x. unfold th_eval. destruct (th_sum x fzero parts) as [r stop] eqn:E. assert (Z : nonneg fzero) by (vm_compute; reflexivity).
    destruct (adds_grow parts fzero Z HP) as [_ A]. destruct (sum_spec parts x fzero Z HP r stop E) as [[-> ->]|(-> & N & _)]; [|exact N].
    destruct (drift_spec drifts x _ A HD) as [->|(B & _)]; [|exact B]. now apply muls_grow. }
  assert (EN : th_eval None parts drifts = full_result parts drifts) by (apply C75_no_threshold; now left).
  exists (th_eval None parts drifts). rewrite th_call_eq by exact VL. fold parts drifts. split; [reflexivity|]. split; [apply NN|].
  intros x. exists (th_eval (Some x) parts drifts). rewrite th_call_eq by exact VL. fold parts drifts. split; [reflexivity|]. split; [apply NN|]. rewrite EN. split.
  - apply C75_same_verdict; assumption.
  - intros X. apply C75_exact_below; assumption.
Qed.

(** the sum of the squares is zero for parameters that fit exactly, and so is the SSE, whatever
    the drift: no parameters are better than these *)
Definition zr (x : f64) : Prop := isfin x = true /\ B2R x = 0.
Lemma zr_fin x : isnan x = false -> key x = 0 -> zr x.
Proof.
  intros N K. assert (F : isfin x = true) by (apply fin_key; auto; rewrite K; pose proof big_pos; lra). split; auto. now rewrite <- key_fin.
Qed.
Lemma zr_add x y : zr x -> zr y -> zr (fadd x y).
Proof. intros [F A] [G B]. destruct (fadd_key x y F G) as [N K]. apply zr_fin; auto. rewrite K, A, B, Rplus_0_r. apply crnd_0. Qed.
Lemma zr_mul x y : isfin x = true -> zr y -> zr (fmul x y) /\ zr (fmul y x).
Proof.
  intros F [G B]. destruct (fmul_key x y F G) as [N K]. destruct (fmul_key y x G F) as [N' K']. split; apply zr_fin; auto.
  - rewrite K, B, Rmult_0_r. apply crnd_0.
  - rewrite K', B, Rmult_0_l. apply crnd_0.
Qed.
Lemma zr_sub x : isfin x = true -> zr (fsub x x).
Proof. intros F. destruct (fsub_key x x F F) as [N K]. apply zr_fin; auto. rewrite K, Rminus_diag_eq by reflexivity. apply crnd_0. Qed.
Lemma zr_tsum t l : Forall zr l -> zr (tsum t l).
Proof.
  intros H. induction t as [k|a IHa b IHb]; cbn [tsum]; [|now apply zr_add]. destruct (Nat.lt_ge_cases k (length l)) as [L|L].
  - rewrite Forall_forall in H. now apply H, nth_In.
  - rewrite nth_overflow by exact L. now split.
Qed.
Lemma zr_eqb x : zr x -> feqb x fzero = true.
Proof. intros [F Z]. apply feqb_spec. split; [now apply nan_fin|]. split; [reflexivity|]. now rewrite key_fzero, key_fin. Qed.
Lemma drift_factor d : bd 100 d -> isfin (fadd fone (fmul penalty d)) = true.
Proof.
  intros D. assert (P : bd 0 penalty).
  { split; [vm_compute; reflexivity|]. assert (A : fleb fzero penalty = true) by (vm_compute; reflexivity). assert (B : fleb penalty fone = true) by (vm_compute; reflexivity).
    apply fle_B2R in A; [|reflexivity|vm_compute; reflexivity]. apply fle_B2R in B; [|vm_compute; reflexivity|reflexivity].
    assert (O : B2R fone = 1) by (rewrite <- key_fin; [apply key_fone|reflexivity]). rewrite O in B. change (bpow radix2 0) with 1. split; auto. }
  destruct (bd_mul 0 100 _ _ ltac:(lia) P D) as [M _].
  assert (O : bd 100 fone). { split; [reflexivity|]. assert (O : B2R fone = 1) by (rewrite <- key_fin; [apply key_fone|reflexivity]). rewrite O. split; [lra|]. change 1 with (bpow radix2 0). apply bpow_le. lia. }
  destruct (bd_add 100 _ _ ltac:(lia) O M) as [S _]. apply S.
Qed.
Theorem C108_exact_fit : forall nplog pow3 pow4 order data values, log_ok nplog -> pow3_ok pow3 -> pow4_ok pow4 -> order_ok order ->
  Forall reading_ok data -> length values = 28%nat -> Forall param values ->
  (forall x k, In x data -> (1 <= k <= 6)%nat -> col 0 x = th_curve nplog pow3 (col k x) (own_args values k)) ->
  exists s, th_call nplog pow3 pow4 order data values None = Ok s /\ feqb s fzero = true.
Proof.
  intros nplog pow3 pow4 order data values LG P3 P4 OR D VL VF EX. rewrite th_call_eq by exact VL. eexists. split; [reflexivity|]. rewrite C75_no_threshold by now left.
  apply zr_eqb. unfold full_result.
  set (parts := map (fun k => th_part nplog pow3 order data k (own_args values k)) (seq 1 6)).
  assert (HP : Forall zr parts).
  { apply Forall_forall. intros y I. apply in_map_iff in I as (k & <- & I). apply in_seq in I. apply zr_tsum. apply Forall_forall. intros y J. apply in_map_iff in J as (x & <- & J).
    rewrite Forall_forall in D. destruct (D x J) as (W & T1 & _). cbv zeta. rewrite <- (EX x k J) by lia.
    pose proof (zr_sub _ T1) as Z1. pose proof (proj1 (zr_mul _ _ (proj1 Z1) Z1)) as Z2. exact (proj1 (zr_mul _ _ (proj1 W) Z2)). }
  assert (Z0 : zr (fold_left fadd parts fzero)).
  { assert (G : forall l a, Forall zr l -> zr a -> zr (fold_left fadd l a)) by (clear; induction l as [|x l IH]; intros a H A; [exact A|]; inversion H; subst; cbn [fold_left]; apply IH; auto; now apply zr_add).
    apply G; auto. now split. }
  set (drifts := map _ (seq 0 4)). assert (HD : Forall (fun d => isfin (fadd fone (fmul penalty d)) = true) drifts).
  { apply Forall_forall. intros y I. apply in_map_iff in I as (j & <- & I). apply in_seq in I. apply drift_factor.
    set (l := map _ _). 
    assert (B : forall k, (k < length l)%nat -> isfin (nth k l fzero) = true /\ Rabs (B2R (nth k l fzero)) <= bpow radix2 10).
    { intros k K. assert (J : In (nth k l fzero) l) by now apply nth_In. unfold l in J at 2. apply in_map_iff in J as (i & <- & J). apply in_seq in J.
      assert (P : param (nth (4 * i + j) values fzero)) by (rewrite Forall_forall in VF; apply VF, nth_In; lia).
      destruct LG as (L1 & _). destruct P as [PF [P1 _]]. apply L1; auto. apply Rlt_le_trans with (2 := P1). apply bpow_gt_0. }
    assert (H : (height (order 6%nat) < 6)%nat) by (pose proof (height_leaves (order 6%nat)) as X; rewrite (Permutation.Permutation_length (OR 5%nat)) in X; exact X).
    destruct (tsum_bound 10 l B ltac:(lia) (order 6%nat) ltac:(lia)) as [F A]. apply P4; auto. apply Rle_trans with (1 := A). apply bpow_le. lia. }
  revert Z0 HD. generalize (fold_left fadd parts fzero). generalize drifts. clear. induction drifts as [|d ds IH]; intros a A H; [exact A|]. inversion H; subst. cbn [fold_left].
  apply IH; auto. apply (proj2 (zr_mul _ _ H2 A)).
Qed.

(** A reading with a negative resistance spoils the SSE of all parameters *)
Lemma nan_add x y : isnan x = true \/ isnan y = true -> isnan (fadd x y) = true.
Proof. intros [H|H]; destruct x, y; try discriminate H; reflexivity. Qed.
Lemma nan_mul x y : isnan x = true \/ isnan y = true -> isnan (fmul x y) = true.
Proof. intros [H|H]; destruct x, y; try discriminate H; reflexivity. Qed.
Lemma nan_sub x y : isnan x = true \/ isnan y = true -> isnan (fsub x y) = true.
Proof. intros [H|H]; destruct x, y; try discriminate H; reflexivity. Qed.
Lemma nan_div x y : isnan x = true \/ isnan y = true -> isnan (fdiv x y) = true.
Proof. intros [H|H]; destruct x, y; try discriminate H; reflexivity. Qed.
Lemma nan_tsum t l k : In k (leaves t) -> isnan (nth k l fzero) = true -> isnan (tsum t l) = true.
Proof.
  intros I N. induction t as [j|a IHa b IHb]; cbn [leaves tsum] in *; [destruct I as [->|[]]; exact N|]. apply nan_add. apply in_app_or in I as [I|I]; auto.
Qed.
Theorem C108_negative_resistance_refuted : forall nplog pow3 pow4 order data values x k, order_ok order ->
  (forall x, fltb x fzero = true -> isnan (nplog x) = true) -> length values = 28%nat ->
  In x data -> (1 <= k <= 6)%nat -> fltb (col k x) fzero = true ->
  exists s, th_call nplog pow3 pow4 order data values None = Ok s /\ isnan s = true.
Proof.
  intros nplog pow3 pow4 order data values x k OR LN VL I K NEG. rewrite th_call_eq by exact VL. eexists. split; [reflexivity|]. rewrite C75_no_threshold by now left. unfold full_result.
  set (parts := map (fun k => th_part nplog pow3 order data k (own_args values k)) (seq 1 6)).
  assert (NP : Exists (fun p => isnan p = true) parts).
  { apply Exists_exists. exists (th_part nplog pow3 order data k (own_args values k)). split; [apply in_map_iff; exists k; split; auto; apply in_seq; lia|].
    unfold th_part. apply In_nth_error in I as (i & I). assert (IL : (i < length data)%nat) by (apply nth_error_Some; congruence).
    apply (nan_tsum _ _ i).
    - apply Permutation.Permutation_in with (l := seq 0 (length data)); [|apply in_seq; lia]. apply Permutation.Permutation_sym. destruct (length data) as [|n]; [lia|apply OR].
    - set (f := fun x0 : reading => let d := fsub (th_curve nplog pow3 (col k x0) (own_args values k)) (col 0 x0) in fmul (weight x0) (fmul d d)).
      rewrite (nth_error_nth (map f data) i fzero (x := f x)); [|rewrite nth_error_map, I; reflexivity].
      unfold f. cbv zeta. apply nan_mul. right. apply nan_mul. left. apply nan_sub. left. unfold th_curve. cbv zeta. apply nan_sub. left. apply nan_div. right. apply nan_add. left. apply nan_add. left. apply nan_add. right. apply nan_mul. right. now apply LN. }
  assert (G1 : forall l a, isnan a = true \/ Exists (fun p => isnan p = true) l -> isnan (fold_left fadd l a) = true).
  { clear. induction l as [|p l IH]; intros a [H|H]; cbn [fold_left]; [exact H|inversion H| |]; apply IH; [left; apply nan_add; auto|]. inversion H; subst; [left; apply nan_add; auto|now right]. }
  assert (G2 : forall l a, isnan a = true -> isnan (fold_left (fun sse d => fmul sse (fadd fone (fmul (fdiv (fofZ 1) (fofZ 10)) d))) l a) = true).
  { clear. induction l as [|p l IH]; intros a H; cbn [fold_left]; [exact H|]. apply IH. apply nan_mul. auto. }
  apply G2, G1. now right.
Qed.

(** ** The battery example *)
(** np.exp of numbers not above zero *)
Definition exp_ok (npexp : f64 -> f64) : Prop :=
  (forall x, fleb x fzero = true -> bd 0 (npexp x)) /\ (forall x y, fleb x y = true -> fleb y fzero = true -> fleb (npexp x) (npexp y) = true).
(** positive and of moderate size *)
Definition pos20 (x : f64) : Prop := bd 20 x /\ 0 < B2R x.
Lemma term_ok npexp t t' a b c : exp_ok npexp -> bd 60 t -> bd 60 t' -> fleb t t' = true -> bd 20 a -> pos20 b -> bd 20 c ->
  bd 20 (voc_term npexp t a b c) /\ bd 20 (voc_term npexp t' a b c) /\ B2R (voc_term npexp t' a b c) <= B2R (voc_term npexp t a b c).
Proof.
  intros [E1 E2] T T' L A [B BP] C. destruct T as [TF TB], T' as [TF' TB']. pose proof (fle_B2R _ _ TF TF' L) as LT.
  destruct (bd_add 60 t c ltac:(lia) (conj TF TB) (bd_weaken _ 60 _ C ltac:(lia))) as [S V]. destruct (bd_add 60 t' c ltac:(lia) (conj TF' TB') (bd_weaken _ 60 _ C ltac:(lia))) as [S' V'].
  assert (SL : B2R (fadd t c) <= B2R (fadd t' c)) by (rewrite V, V'; apply crnd_mono; lra).
  assert (Q : forall s, bd 61 s -> isnan (fdiv (fopp s) b) = false /\ key (fdiv (fopp s) b) = crnd (- B2R s / B2R b)).
  { intros s [SF SB]. assert (OF : isfin (fopp s) = true) by (destruct s; auto). destruct (fdiv_key (fopp s) b OF (proj1 B) ltac:(lra)) as [N K]. split; auto. rewrite K. unfold fopp. now rewrite B2R_Bopp. }
  destruct (Q _ S) as [N1 K1]. destruct (Q _ S') as [N2 K2].
  assert (IB : 0 < / B2R b) by now apply Rinv_0_lt_compat.
  assert (LE : fleb (fdiv (fopp (fadd t' c)) b) (fdiv (fopp (fadd t c)) b) = true) by (apply fleb_spec; split; auto; split; auto; rewrite K1, K2; apply crnd_mono; unfold Rdiv; nra).
  assert (L0 : fleb (fdiv (fopp (fadd t c)) b) fzero = true) by (apply fleb_spec; split; auto; split; [reflexivity|]; rewrite K1, key_fzero; apply crnd_le0; unfold Rdiv; destruct S as [_ [S _]]; nra).
  pose proof (fleb_trans _ _ _ LE L0) as L1. pose proof (E1 _ L0) as X. pose proof (E1 _ L1) as X'. pose proof (E2 _ _ LE L0) as XL. apply fle_B2R in XL; [|apply X'|apply X].
  destruct (bd_mul 20 0 _ _ ltac:(lia) A X) as [M W]. destruct (bd_mul 20 0 _ _ ltac:(lia) A X') as [M' W'].
  unfold voc_term. split; [exact M|]. split; [exact M'|]. rewrite W, W'. apply crnd_mono. apply Rmult_le_compat_l; [apply A|exact XL].
Qed.
(** parameters in the order in which the evaluator gets them: the time constants, as it
    uses them, are the second, fifth and eighth *)
Definition voc_ok (values : list f64) : Prop := length values = 10%nat /\ Forall (bd 20) values /\ 0 < B2R (nth 1 values fzero) /\ 0 < B2R (nth 4 values fzero) /\ 0 < B2R (nth 7 values fzero).
Lemma add_le e x y z : (-1074 <= e + 1 < 1024)%Z -> bd e x -> bd e y -> bd e z -> B2R y <= B2R z -> B2R x <= B2R (fadd x y) <= B2R (fadd x z).
Proof.
  intros E X Y Z L. destruct (bd_add e x y E X Y) as [A B]. destruct (bd_add e x z E X Z) as [A' B']. rewrite B, B'. split; [|apply crnd_mono; lra].
  rewrite <- (crnd_B2R x) at 1. apply crnd_mono. destruct Y as [_ [Y _]]. lra.
Qed.
Lemma add_le1 e x y z w : (-1074 <= e + 1 < 1024)%Z -> bd e x -> bd e y -> bd e z -> bd e w -> B2R x <= B2R y -> B2R z <= B2R w ->
  B2R (fadd x z) <= B2R (fadd y w) /\ B2R x <= B2R (fadd x z).
Proof.
  intros E X Y Z W L M. destruct (bd_add e x z E X Z) as [A B]. destruct (bd_add e y w E Y W) as [A' B']. rewrite B, B'. split; [apply crnd_mono; lra|].
  rewrite <- (crnd_B2R x) at 1. apply crnd_mono. destruct Z as [_ [Z _]]. lra.
Qed.
Lemma voc_val npexp values t t' : exp_ok npexp -> voc_ok values -> bd 60 t -> bd 60 t' -> fleb t t' = true ->
  exists v v', voc_curve npexp t values = Ok v /\ voc_curve npexp t' values = Ok v' /\ bd 23 v /\ bd 23 v' /\ B2R (nth 9 values fzero) <= B2R v' <= B2R v.
Proof.
  intros EX (VL & VF & P1 & P4 & P7) T T' L. destruct values as [|a0 [|b0 [|c0 [|a1 [|b1 [|c1 [|a2 [|b2 [|c2 [|vo [|? ?]]]]]]]]]]]; try discriminate VL.
  cbn [nth] in P1, P4, P7 |- *.
  assert (G : forall x, In x [a0; b0; c0; a1; b1; c1; a2; b2; c2; vo] -> bd 20 x) by (rewrite Forall_forall in VF; exact VF).
  cbn [voc_curve]. eexists. eexists. split; [reflexivity|]. split; [reflexivity|].
  destruct (term_ok npexp t t' a0 b0 c0) as (A1 & A2 & A3); auto; [apply G; cbn; tauto|split; [apply G; cbn; tauto|exact P1]|apply G; cbn; tauto|].
  destruct (term_ok npexp t t' a1 b1 c1) as (B1 & B2 & B3); auto; [apply G; cbn; tauto|split; [apply G; cbn; tauto|exact P4]|apply G; cbn; tauto|].
  destruct (term_ok npexp t t' a2 b2 c2) as (C1 & C2 & C3); auto; [apply G; cbn; tauto|split; [apply G; cbn; tauto|exact P7]|apply G; cbn; tauto|].
  assert (V : bd 20 vo) by (apply G; cbn; tauto).
  set (x := voc_term npexp t a0 b0 c0) in *. set (x' := voc_term npexp t' a0 b0 c0) in *. set (y := voc_term npexp t a1 b1 c1) in *. set (y' := voc_term npexp t' a1 b1 c1) in *.
  set (z := voc_term npexp t a2 b2 c2) in *. set (z' := voc_term npexp t' a2 b2 c2) in *.
  destruct (bd_add 20 vo x ltac:(lia) V A1) as [u1 _]. destruct (bd_add 20 vo x' ltac:(lia) V A2) as [u1' _].
  destruct (bd_add 21 _ y ltac:(lia) u1 (bd_weaken _ 21 _ B1 ltac:(lia))) as [u2 _]. destruct (bd_add 21 _ y' ltac:(lia) u1' (bd_weaken _ 21 _ B2 ltac:(lia))) as [u2' _].
  destruct (bd_add 22 _ z ltac:(lia) u2 (bd_weaken _ 22 _ C1 ltac:(lia))) as [u3 _]. destruct (bd_add 22 _ z' ltac:(lia) u2' (bd_weaken _ 22 _ C2 ltac:(lia))) as [u3' _].
  split; [exact u3|]. split; [exact u3'|].
  destruct (add_le1 20 vo vo x' x ltac:(lia) V V A2 A1 (Rle_refl _) A3) as [M1 M2].
  destruct (add_le1 21 _ _ y' y ltac:(lia) u1' u1 (bd_weaken _ 21 _ B2 ltac:(lia)) (bd_weaken _ 21 _ B1 ltac:(lia)) M1 B3) as [M3 M4].
  destruct (add_le1 22 _ _ z' z ltac:(lia) u2' u2 (bd_weaken _ 22 _ C2 ltac:(lia)) (bd_weaken _ 22 _ C1 ltac:(lia)) M3 C3) as [M5 M6]. lra.
Qed.
(** The modelled voltage never rises with time and never falls below the open-circuit voltage
    (the last parameter) *)
Theorem C108_voc_curve : forall npexp values t t', exp_ok npexp -> voc_ok values -> bd 60 t -> bd 60 t' -> fleb t t' = true ->
  exists v v', voc_curve npexp t values = Ok v /\ voc_curve npexp t' values = Ok v' /\ fleb v' v = true /\ fleb (nth 9 values fzero) v' = true.
Proof.
  intros npexp values t t' EX V T T' L. destruct (voc_val npexp values t t' EX V T T' L) as (v & v' & E & E' & B & B' & L1 & L2). exists v, v'. split; auto. split; auto.
  split; [eapply bd_le; [exact B'|exact B|exact L2]|]. eapply bd_le; [|exact B'|exact L1]. destruct V as (VL & VF & _). rewrite Forall_forall in VF. apply VF, nth_In. lia.
Qed.
(** The SSE is a number not below zero *)
Theorem C108_voc : forall npexp order data values, exp_ok npexp -> voc_ok values ->
  Forall (fun tv => bd 60 (fst tv) /\ isfin (snd tv) = true /\ Rabs (B2R (snd tv)) <= bpow radix2 60) data ->
  exists s, voc_call npexp order data values = Ok s /\ fleb fzero s = true.
Proof.
  intros npexp order data values EX V D. unfold voc_call.
  set (f := fun tv : f64 * f64 => bind (voc_curve npexp (fst tv) values) (fun v => let d := fsub v (snd tv) in Ok (fmul d d))).
  assert (G : exists l, collect (map f data) = Ok l /\ Forall nn l).
  { induction D as [|[t v0] data (T & F & B) D IH]; [exists []; split; [reflexivity|constructor]|]. destruct IH as (l & E & N). cbn [map collect fst snd].
    destruct (voc_val npexp values t t EX V T T) as (v & _ & E1 & _ & [VF [V0 V1]] & _); [apply fleb_refl, nan_fin, T|]. cbn [fst snd] in F, B. assert (FE : f (t, v0) = Ok (fmul (fsub v v0) (fsub v v0))) by (unfold f; cbn [fst snd]; rewrite E1; reflexivity). rewrite FE, E. cbn [bind].
    eexists. split; [reflexivity|]. constructor; auto. cbv zeta. apply nn_square. apply nan_fin.
    apply (sub_fin 60); [lia|exact VF|exact F| |exact B]. apply Rabs_le. assert (bpow radix2 23 <= bpow radix2 60) by (apply bpow_le; lia). lra. }
  destruct G as (l & -> & N). cbn [bind]. eexists. split; [reflexivity|]. apply nn_nonneg. pose proof (nn_tsum (order (length l)) l N) as S.
  destruct (fofZ_val 100 ltac:(lia)) as [HF HV]. destruct (nn_cases _ S) as [[SF S0]| ->]; [|vm_compute; split; [reflexivity|]].
  - destruct (fmul_key _ _ HF SF) as [A B]. split; auto. rewrite B. apply crnd_ge0. rewrite HV. lra.
  - exact (proj2 nn_inf).
Qed.
(** Within its bounds the SSE may be NaN: with the parameters a2 and a3, which the evaluator
    takes for a time constant and an offset, at their lower bounds of zero, the reading at
    time zero - always the first one - gives 0/0 *)
Theorem C108_voc_bounds_refuted : forall npexp order v0 data a1 b1 b2 b3 c1 c2 c3 voc, (forall x, isnan x = true -> isnan (npexp x) = true) -> order_ok order ->
  forall s, voc_call npexp order ((fzero, v0) :: data) [a1; fzero; fzero; b1; b2; b3; c1; c2; c3; voc] = Ok s -> isnan s = true.
Proof.
  intros npexp order v0 data a1 b1 b2 b3 c1 c2 c3 voc XN OR s. unfold voc_call. cbn [map collect fst snd voc_curve bind].
  set (d := fsub _ v0). destruct (collect _) as [l|]; [|discriminate]. cbn [bind]. cbv zeta. set (q := fmul (fofZ 100) _). intros E. assert (s = q) as -> by congruence. unfold q. apply nan_mul. right. apply (nan_tsum _ _ 0).
  - apply Permutation.Permutation_in with (l := seq 0 (length (fmul d d :: l))); [|apply in_seq; cbn [length]; lia]. apply Permutation.Permutation_sym. apply OR.
  - cbn [nth]. apply nan_mul. left. apply nan_sub. left. apply nan_add. left. apply nan_add. left. apply nan_add. right. apply nan_mul. right. apply XN. vm_compute. reflexivity.
Qed.

(** ** examples *)
Lemma in_turn_ok : order_ok in_turn.
Proof.
  intros n. assert (G : forall n, leaves (in_turn (S n)) = seq 0 (S n)).
  { clear. induction n as [|n IH]; [reflexivity|]. change (leaves (in_turn (S n)) ++ [S n] = seq 0 (S (S n))). rewrite IH. symmetry. transitivity (seq 0 (S n) ++ [S n]); [apply (seq_S (S n) 0)|reflexivity]. }
  rewrite G. apply Permutation.Permutation_refl.
Qed.
Lemma bd_lit m e e' : (0 <= m < 2 ^ 53)%Z -> (-1074 <= e)%Z -> (e + 53 <= e')%Z -> (e <= 971)%Z -> bd e' (flit m e).
Proof.
  intros M E L U. destruct (flit_val m e) as [F V]; [lia|lia|]. split; auto. rewrite V. assert (P := bpow_ge_0 radix2 e). assert (0 <= IZR m) by (apply IZR_le; lia). split; [nra|].
  apply Rle_trans with (IZR (2 ^ 53) * bpow radix2 e); [apply Rmult_le_compat_r; auto; apply IZR_le; lia|]. change (IZR (2 ^ 53)) with (bpow radix2 53). rewrite <- bpow_plus. apply bpow_le. lia.
Qed.
Lemma param_lit m e : (2 ^ 52 <= m < 2 ^ 53)%Z -> (-82 <= e <= -43)%Z -> param (flit m e).
Proof.
  intros M E. destruct (bd_lit m e 10) as [F [_ B]]; try lia. split; auto. split; auto. destruct (flit_val m e) as [_ V]; [lia|lia|]. rewrite V.
  apply Rle_trans with (IZR (2 ^ 52) * bpow radix2 e); [change (IZR (2 ^ 52)) with (bpow radix2 52); rewrite <- bpow_plus; apply bpow_le; lia|].
  apply Rmult_le_compat_r; [apply bpow_ge_0|apply IZR_le; lia].
Qed.
(** a parameter between two such values is one *)
Lemma param_between a b x : param a -> param b -> fleb a x = true -> fleb x b = true -> param x.
Proof.
  intros [FA [A _]] [FB [_ B]] L U. apply fleb_spec in L as (_ & N & L). apply fleb_spec in U as (_ & _ & U). rewrite (key_fin a FA) in L. rewrite (key_fin b FB) in U.
  assert (F : isfin x = true). { apply fin_lt_big; auto. assert (0 <= bpow radix2 (-30)) by apply bpow_ge_0. split; [lra|]. apply Rle_lt_trans with (bpow radix2 10); [lra|apply big_gt; lia]. }
  rewrite (key_fin x F) in L, U. split; auto. lra.
Qed.
(** the bounds of the thermistor example (thermistor.py:174-187), as pairs of mantissa and exponent *)
Definition th_bounds : list ((Z * Z) * (Z * Z)) :=
  [((7378697629483821, -63), (6456360425798343, -62)); ((7378697629483821, -65), (5534023222112865, -64)); ((6044629098073146, -79), (6044629098073146, -78)); ((8462480737302404, -80), (6044629098073146, -78));
   ((5404319552844595, -53), (6305039478318694, -52)); ((5404319552844595, -53), (6305039478318694, -52)); ((7205759403792794, -57), (5629499534213120, -48)); ((7205759403792794, -57), (5629499534213120, -48))]%Z.
Example th_bounds_param : forall lo hi x, In (lo, hi) th_bounds -> fleb (flit (fst lo) (snd lo)) x = true -> fleb x (flit (fst hi) (snd hi)) = true -> param x.
Proof.
  intros lo hi x I L U. revert L U. apply param_between; cbn [th_bounds In] in I;
    repeat match goal with H : _ \/ _ |- _ => destruct H as [H|H] end; try contradiction; injection I as <- <-; cbn [fst snd]; apply param_lit; lia.
Qed.
Definition zero1 : f64 -> f64 := fun _ => fzero.
Lemma bd_zero e : bd e fzero.
Proof. split; [reflexivity|]. change (B2R fzero) with 0. split; [lra|apply bpow_ge_0]. Qed.
Lemma zero_log : log_ok zero1.
Proof.
  split; [intros; split; [reflexivity|]; change (B2R (zero1 x)) with 0; rewrite Rabs_R0; lra|]. split; intros; reflexivity.
Qed.
(** values in the middle of the bounds, two readings *)
Definition mid : list f64 :=
  [flit 8301034833169299 (-63); flit 4611686018427388 (-64); flit 4533471823554860 (-78); flit 4611686018427388 (-78)]%Z ++ flat_map (fun _ => [fone; fone; fofZ 2; fone]) (seq 1 6).
Definition two_readings : list reading := map (fun T => mkReading (fofZ 3) (fofZ T :: map (fun k => fofZ (10000 + Z.of_nat k)) (seq 1 6))) [20; 25]%Z.
Lemma mid_ok : length mid = 28%nat /\ Forall param mid.
Proof.
  split; [reflexivity|]. assert (O : param fone). { split; [reflexivity|]. assert (V : B2R fone = 1) by (rewrite <- key_fin; [apply key_fone|reflexivity]). rewrite V. change 1 with (bpow radix2 0). split; apply bpow_le; lia. }
  assert (T : param (fofZ 2)). { destruct (fofZ_val 2) as [F V]; [lia|]. split; auto. rewrite V. change 2 with (bpow radix2 1). split; apply bpow_le; lia. }
  apply Forall_app. split; [do 4 (apply Forall_cons; [apply param_lit; lia|]); apply Forall_nil|]. apply Forall_forall. intros x I. apply in_flat_map in I as (k & _ & [<-|[<-|[<-|[<-|[]]]]]); assumption.
Qed.
Lemma two_ok : Forall reading_ok two_readings.
Proof.
  assert (G : forall T, (0 <= T < 100)%Z -> reading_ok (mkReading (fofZ 3) (fofZ T :: map (fun k => fofZ (10000 + Z.of_nat k)) (seq 1 6)))).
  { intros T HT. split; [|split; [|split]].
    - destruct (fofZ_val 3) as [F V]; [lia|]. split; auto. cbn [weight]. rewrite V. split; [lra|]. change (bpow radix2 5) with 32. lra.
    - unfold col. cbn [cols nth]. apply fofZ_val. lia.
    - unfold col. cbn [cols nth]. destruct (fofZ_val T) as [_ V]; [lia|]. rewrite V, Rabs_pos_eq by (apply IZR_le; lia). apply Rle_trans with (bpow radix2 7); [|apply bpow_le; lia]. change (bpow radix2 7) with 128. apply IZR_le. lia.
    - intros k K. unfold col. destruct k as [|k]; [lia|]. cbn [cols nth]. set (f := fun k => fofZ (10000 + Z.of_nat k)). rewrite (nth_indep _ fzero (f 0%nat)) by (rewrite map_length, seq_length; lia). rewrite map_nth, seq_nth by lia.
      unfold f. destruct (fofZ_val (10000 + Z.of_nat (1 + k))) as [F V]; [lia|]. split; auto. rewrite V. apply IZR_le. lia. }
  unfold two_readings. cbn [map]. apply Forall_cons; [apply G; lia|]. apply Forall_cons; [apply G; lia|]. apply Forall_nil.
Qed.
Example C108_thermistor_case : log_ok zero1 /\ pow3_ok zero1 /\ pow4_ok zero1 /\ order_ok in_turn /\ Forall reading_ok two_readings /\ length mid = 28%nat /\ Forall param mid /\
  (exists s, th_call zero1 zero1 zero1 in_turn two_readings mid None = Ok s /\ fltb (fofZ 10000) s = true).
Proof.
  split; [exact zero_log|]. split; [split; intros; [apply bd_zero|reflexivity]|]. split; [intros x _ _; apply bd_zero|]. split; [exact in_turn_ok|]. split; [exact two_ok|].
  split; [apply mid_ok|]. split; [apply mid_ok|].
  assert (E : match th_call zero1 zero1 zero1 in_turn two_readings mid None with Ok s => fltb (fofZ 10000) s | Raise _ => false end = true) by (vm_compute; reflexivity).
  destruct (th_call zero1 zero1 zero1 in_turn two_readings mid None) as [s|]; [|discriminate E]. exists s. auto.
Qed.
(** an exact fit: the temperature of a reading is the curve's own *)
Example C108_exact_case : let R := fofZ 10000 in let T := th_curve zero1 zero1 R (own_args mid 1) in let data := [mkReading fone (T :: map (fun _ => R) (seq 1 6))] in
  Forall reading_ok data /\ (forall x k, In x data -> (1 <= k <= 6)%nat -> col 0 x = th_curve zero1 zero1 (col k x) (own_args mid k)).
Proof.
  cbv zeta. split.
  - constructor; [|constructor]. split; [|split; [|split]].
    + cbn [weight]. assert (V : B2R fone = 1) by (rewrite <- key_fin; [apply key_fone|reflexivity]). split; [reflexivity|]. rewrite V. split; [lra|]. change (bpow radix2 5) with 32. lra.
    + unfold col. cbn [cols nth]. vm_compute. reflexivity.
    + unfold col. cbn [cols nth]. destruct mid_ok as [ML MF]. destruct (own_args_ok mid 1 ML MF ltac:(lia)) as [OL OF].
      destruct (fofZ_val 10000) as [F V]; [lia|]. destruct (curve_val zero1 zero1 zero_log ltac:(split; intros; [apply bd_zero|reflexivity]) _ (conj OL OF) (fofZ 10000)) as (_ & _ & A & B); [split; auto; rewrite V; lra|].
      apply Rabs_le. destruct offset_val as [_ O]. split; [|lra]. assert (1024 <= bpow radix2 60) by (change 1024 with (bpow radix2 10); apply bpow_le; lia). lra.
    + intros k K. unfold col. destruct k as [|k]; [lia|]. cbn [cols nth]. set (f := fun _ : nat => fofZ 10000). rewrite (nth_indep _ fzero (f 0%nat)) by (rewrite map_length, seq_length; lia). rewrite map_nth.
      unfold f. destruct (fofZ_val 10000) as [F V]; [lia|]. split; auto. rewrite V. lra.
  - intros x k [<-|[]] K. do 7 (destruct k as [|k]; [try lia; reflexivity|]). lia.
Qed.
Example C108_curve_case : let R := fofZ 10000 in resistance R /\ resistance (fofZ 20000) /\ fleb R (fofZ 20000) = true /\ fltb (fofZ 100) (th_curve zero1 zero1 R (own_args mid 1)) = true.
Proof.
  cbv zeta. destruct (fofZ_val 10000) as [F V]; [lia|]. destruct (fofZ_val 20000) as [F' V']; [lia|]. split; [split; auto; rewrite V; lra|]. split; [split; auto; rewrite V'; lra|]. split; vm_compute; reflexivity.
Qed.
(** the cube by two multiplications *)
Definition cube1 (x : f64) : f64 := fmul (fmul x x) x.
Lemma cube_ok : pow3_ok cube1 /\ pow3_near cube1.
Proof.
  assert (G : forall x, bd 10 x -> bd 30 (cube1 x) /\ bd 20 (fmul x x)).
  { intros x X. destruct (bd_mul 10 10 x x ltac:(lia) X X) as [S _]. destruct (bd_mul 20 10 _ x ltac:(lia) S X) as [C _]. auto. }
  split; [split|].
  - intros x X. apply (bd_weaken 30); [now apply G|lia].
  - intros x y X Y L. apply fle_B2R in L; [|apply X|apply Y]. destruct (G x X) as [A _]. destruct (G y Y) as [B _]. apply (bd_le 30 30); auto.
    destruct (bd_mul 10 10 x x ltac:(lia) X X) as [S E]. destruct (bd_mul 20 10 _ x ltac:(lia) S X) as [_ F]. destruct (bd_mul 10 10 y y ltac:(lia) Y Y) as [S' E']. destruct (bd_mul 20 10 _ y ltac:(lia) S' Y) as [_ F'].
    unfold cube1. rewrite F, F'. assert (X0 : 0 <= B2R x) by apply X. assert (S0 : 0 <= B2R (fmul x x)) by apply S. apply crnd_mono. apply Rmult_le_compat; auto. rewrite E, E'. apply crnd_mono. apply Rmult_le_compat; auto.
  - intros x X L. destruct (G x X) as [_ S]. assert (X0 : 0 < B2R x) by (apply Rlt_le_trans with (2 := L); apply bpow_gt_0).
    assert (N1 : near 1 (B2R (fmul x x)) (B2R x * B2R x)) by (apply (near_mul 0 0 _ _ _ _ 10 10 X X); try (apply near_refl; exact X0); [lia|]; apply Rle_trans with (2 := mult_low _ _ _ _ L L); apply bpow_le; lia).
    assert (L2 : bpow radix2 (-41) <= B2R (fmul x x)) by (apply (near_range 1 _ _ (-41) N1); [lia|]; change (-41 + 1)%Z with (-20 + -20)%Z; now apply mult_low).
    assert (N2 : near 2 (B2R (cube1 x)) (B2R x * B2R x * B2R x)) by (apply (near_mul 1 0 _ _ _ _ 20 10 S X); auto; [lia|now apply near_refl|]; apply Rle_trans with (2 := mult_low _ _ _ _ L2 L); apply bpow_le; lia).
    replace (B2R x ^ 3) with (B2R x * B2R x * B2R x) by ring. destruct N2 as (C0 & Y0 & A & B). set (y := B2R x * B2R x * B2R x) in *. set (z := B2R (cube1 x)) in *.
    assert (E : bpow radix2 (-50) = 4 * bpow radix2 (-52)) by (change (-50)%Z with (2 + -52)%Z; rewrite bpow_plus; reflexivity). rewrite E.
    assert (T : 0 < bpow radix2 (-52)) by apply bpow_gt_0. assert (W : bpow radix2 (-52) <= / 1024) by (change (/ 1024) with (bpow radix2 (-10)); apply bpow_le; lia).
    unfold q52 in A, B. set (e := bpow radix2 (-52)) in *. assert (Q : (1 + e) ^ 2 <= 1 + 3 * e) by (cbn [pow]; nra). apply Rabs_le.
    assert (y * (1 + e) ^ 2 <= y * (1 + 3 * e)) by (apply Rmult_le_compat_l; lra). assert (z * (1 + e) ^ 2 <= z * (1 + 3 * e)) by (apply Rmult_le_compat_l; lra). assert (0 < y * e) by now apply Rmult_lt_0_compat. split; [|lra].
    assert (z <= y * (1 + 3 * e)) by lra. nra.
Qed.
Definition nine1 : f64 -> f64 := fun _ => fofZ 9.
Example C108_formula_case : log_ok nine1 /\ pow3_ok cube1 /\ pow3_near cube1 /\ resistance (fofZ 10000) /\ bpow radix2 (-20) <= B2R (nine1 (fofZ 10000)) /\
  fltb (fofZ 34) (th_curve nine1 cube1 (fofZ 10000) (own_args mid 1)) = true.
Proof.
  destruct (fofZ_val 9) as [F V]; [lia|]. split.
  { split; [intros x _ _; split; [exact F|unfold nine1; rewrite V; apply Rabs_le; lra]|]. split; intros; vm_compute; reflexivity. }
  split; [apply cube_ok|]. split; [apply cube_ok|]. destruct (fofZ_val 10000) as [F' V']; [lia|]. split; [split; auto; rewrite V'; lra|]. split; [unfold nine1; rewrite V; apply Rle_trans with (bpow radix2 0); [apply bpow_le; lia|simpl; lra]|]. vm_compute. reflexivity.
Qed.
Definition neg_log : f64 -> f64 := fun x => if fltb x fzero then B754_nan else fzero.
Example C108_negative_case : (forall x, fltb x fzero = true -> isnan (neg_log x) = true) /\ fltb (col 2 (mkReading fone [fone; fone; fofZ (-5)])) fzero = true.
Proof. split; [intros x H; unfold neg_log; rewrite H; reflexivity|vm_compute; reflexivity]. Qed.
(** one half for every argument *)
Definition half1 : f64 -> f64 := fun x => if isnan x then x else flit 1 (-1).
Example C108_voc_case : exp_ok half1 /\ (forall x, isnan x = true -> isnan (half1 x) = true) /\ voc_ok (map fofZ [40; 600; 800; 600; 7200; 43200; 200; 1000; 4000; 50]%Z) /\
  (exists v, voc_curve half1 (fofZ 10) (map fofZ [40; 600; 800; 600; 7200; 43200; 200; 1000; 4000; 50]%Z) = Ok v /\ feqb v (fofZ 470) = true).
Proof.
  split; [split|split; [|split]].
  - intros x L. assert (N : isnan x = false) by (apply fleb_spec in L; tauto). unfold half1. rewrite N. destruct (flit_val 1 (-1)) as [F V]; [lia|lia|]. split; auto. rewrite V, Rmult_1_l. split; [apply bpow_ge_0|apply bpow_le; lia].
  - intros x y L L'. assert (N : isnan x = false) by (apply fleb_spec in L; tauto). assert (N' : isnan y = false) by (apply fleb_spec in L'; tauto). unfold half1. rewrite N, N'. vm_compute. reflexivity.
  - intros x H. unfold half1. now rewrite H.
  - assert (G : forall z, (0 < z < 2 ^ 20)%Z -> bd 20 (fofZ z) /\ 0 < B2R (fofZ z)).
    { intros z Z. destruct (fofZ_val z) as [F V]; [lia|]. split; [split; auto|]; rewrite V; [|apply IZR_lt; lia]. split; [apply IZR_le; lia|]. change (bpow radix2 20) with (IZR (2 ^ 20)). apply IZR_le. lia. }
    split; [reflexivity|]. split; [|cbn [map nth]; split; [apply G; lia|split; apply G; lia]]. apply Forall_forall. intros x I. apply in_map_iff in I as (z & <- & I). apply G.
    cbn [In] in I. repeat match goal with H : _ \/ _ |- _ => destruct H as [<-|H]; [lia|] end. contradiction.
  - assert (E : match voc_curve half1 (fofZ 10) (map fofZ [40; 600; 800; 600; 7200; 43200; 200; 1000; 4000; 50]%Z) with Ok v => feqb v (fofZ 470) | Raise _ => false end = true) by (vm_compute; reflexivity).
    destruct (voc_curve half1 _ _) as [v|]; [|discriminate E]. exists v. auto.
Qed.

Print Assumptions C108_curve.
Print Assumptions C108_formula.
Print Assumptions C108_thermistor.
Print Assumptions C108_exact_fit.
Print Assumptions C108_negative_resistance_refuted.
Print Assumptions C108_voc_curve.
Print Assumptions C108_voc.
Print Assumptions C108_voc_bounds_refuted.
