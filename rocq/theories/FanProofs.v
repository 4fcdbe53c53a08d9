(** * Lemmas about the fan's decision *)
From Coq Require Import Reals ZArith List Bool Lia Lra Psatz.
From Flocq Require Import Core BinarySingleNaN Plus_error.
From Verif Require Import Flt FltMore Py FanModel.
Local Open Scope R_scope.

Lemma m_fin : isfin td_m = true. Proof. vm_compute. reflexivity. Qed.
Lemma b_fin : isfin td_b = true. Proof. vm_compute. reflexivity. Qed.
Lemma m_val : - 1 < B2R td_m < 0.
Proof.
  rewrite <- key_fin by exact m_fin. assert (A : fltb td_m fzero = true) by (vm_compute; reflexivity). assert (B : fltb (fofZ (-1)) td_m = true) by (vm_compute; reflexivity).
  apply fltb_spec in A as (_ & _ & A). apply fltb_spec in B as (_ & _ & B). rewrite key_fzero in A. rewrite key_fofZ in B by reflexivity. lra.
Qed.
Definition TD (i : R) : R := Rmax 0 (crnd (crnd (B2R td_m * i) + B2R td_b)).
Lemma TD_ge0 i : 0 <= TD i. Proof. apply Rmax_l. Qed.
Lemma TD_anti i j : i <= j -> TD j <= TD i.
Proof.
  intros L. apply Rle_max_compat_l. apply crnd_mono. apply Rplus_le_compat_r. apply crnd_mono. generalize m_val. nra.
Qed.
Lemma td_key i : isfin i = true -> isnan (tempDiff i) = false /\ key (tempDiff i) = TD (B2R i).
Proof.
  intros F. unfold tempDiff. destruct (fmul_key td_m i m_fin F) as [N K].
  assert (FM : isfin (fmul td_m i) = true).
  { apply fin_key; [exact N|]. rewrite K. pose proof (fin_bound i) as B. pose proof m_val as M.
    assert (- Rabs (B2R i) <= crnd (B2R td_m * B2R i) <= Rabs (B2R i)).
    { assert (C : crnd (Rabs (B2R i)) = Rabs (B2R i)) by (rewrite <- B2R_Babs; apply crnd_B2R).
      split.
      - rewrite <- C, <- crnd_opp. apply crnd_mono. unfold Rabs. destruct Rcase_abs; nra.
      - rewrite <- C. apply crnd_mono. unfold Rabs. destruct Rcase_abs; nra. }
    unfold Rabs in H. destruct Rcase_abs in H; lra. }
  destruct (fadd_key _ td_b FM b_fin) as [N2 K2]. rewrite <- (key_fin _ FM), K in K2. destruct (fltb fzero (fadd (fmul td_m i) td_b)) eqn:E.
  - apply fltb_spec in E as (_ & _ & E). rewrite key_fzero in E. split; [exact N2|]. unfold TD. rewrite <- K2. rewrite Rmax_right; lra.
  - apply fltb_false in E; [|reflexivity|exact N2]. rewrite key_fzero in *. split; [reflexivity|]. unfold TD. rewrite <- K2. rewrite Rmax_left; lra.
Qed.
Lemma td_inf : tempDiff finf = fzero. Proof. reflexivity. Qed.

Lemma key_pinf : key finf = big. Proof. reflexivity. Qed.
Lemma key_ninf : key fninf = - big. Proof. reflexivity. Qed.
Local Opaque td_m td_b tempDiff.
Definition dec (o i : f64) : bool := if fltb i INSIDE_MIN then false else fltb (tempDiff i) (fsub i o).
Lemma dec_spec o i : dec o i = true <-> isnan o = false /\ isnan i = false /\ 10 <= key i /\ o <> finf /\
  (i = finf \/ o = fninf \/ (isfin o = true /\ isfin i = true /\ TD (B2R i) < crnd (B2R i - B2R o))).
Proof.
  assert (K10 : key INSIDE_MIN = 10) by (apply key_fofZ; reflexivity).
  unfold dec. destruct (isnan i) eqn:Ni.
  { split; [|intros (_ & H & _); discriminate]. intros H. destruct (fltb i INSIDE_MIN); [discriminate|]. apply fltb_spec in H as (_ & H & _). destruct i; try discriminate Ni. discriminate H. }
  destruct (isnan o) eqn:No.
  { split; [|intros (H & _); discriminate]. destruct (fltb i INSIDE_MIN); [discriminate|]. intros H. apply fltb_spec in H as (_ & H & _). destruct o; try discriminate No. destruct i; discriminate H. }
  destruct (fltb i INSIDE_MIN) eqn:E.
  { apply fltb_spec in E as (_ & _ & E). split; [discriminate|]. intros (_ & _ & H & _). lra. }
  apply fltb_false in E; [|exact Ni|reflexivity].
  destruct (isfin_cases i Ni) as [Fi|[->| ->]].
  - destruct (isfin_cases o No) as [Fo|[->| ->]].
    + destruct (td_key i Fi) as [N1 K1]. destruct (fsub_key i o Fi Fo) as [N2 K2]. rewrite fltb_spec, N1, N2, K1, K2. split.
      * intros (_ & _ & H). repeat split; try lra; [intros ->; discriminate Fo|auto].
      * intros (_ & _ & _ & _ & [->|[->|(_ & _ & H)]]); [discriminate Fi|discriminate Fo|]. auto.
    + split; [|intros (_ & _ & _ & H & _); congruence]. intros H. destruct (td_key i Fi) as [N1 K1]. apply fltb_spec in H as (_ & _ & H). rewrite K1 in H. pose proof (TD_ge0 (B2R i)) as T0.
      assert (G : fsub i finf = fninf) by (destruct i; try discriminate Fi; reflexivity). rewrite G in H. change (key fninf) with (- big) in H. generalize big_pos. lra.
    + split; [|intros _]. * intros _. repeat split; try lra; [discriminate|auto].
      * apply fltb_spec. destruct (td_key i Fi) as [N1 K1]. assert (G : fsub i fninf = finf) by (destruct i; try discriminate Fi; reflexivity). rewrite G, N1, K1. split; [reflexivity|]. split; [reflexivity|].
        rewrite key_pinf. unfold TD. apply Rmax_lub_lt; [apply big_pos|]. apply Rle_lt_trans with (crnd (B2R td_b)).
        -- apply crnd_mono. assert (crnd (B2R td_m * B2R i) <= 0); [|lra]. apply crnd_le0. generalize m_val. rewrite (key_fin _ Fi) in E. nra.
        -- rewrite crnd_B2R. apply fin_bound.
  - rewrite td_inf. destruct (isfin_cases o No) as [Fo|[->| ->]].
    + assert (G : fsub finf o = finf) by (destruct o; try discriminate Fo; reflexivity). rewrite G. split; [intros _|reflexivity]. repeat split; [lra|intros ->; discriminate Fo|auto].
    + split; [discriminate|]. intros (_ & _ & _ & H & _). congruence.
    + split; [intros _|reflexivity]. repeat split; [lra|discriminate|auto].
  - exfalso. rewrite ?key_pinf, ?key_ninf in E. pose proof big_pos. lra.
Qed.
Lemma dec_lt o i : dec o i = true -> fltb o i = true /\ fleb INSIDE_MIN i = true.
Proof.
  intros H. apply dec_spec in H as (No & Ni & K & O & H). split.
  - apply fltb_spec. split; [exact No|]. split; [exact Ni|]. destruct H as [->|[->|(Fo & Fi & H)]].
    + destruct (isfin_cases o No) as [Fo|[->| ->]]; [|congruence|rewrite ?key_pinf, ?key_ninf; pose proof big_pos; lra]. rewrite (key_fin _ Fo). apply fin_bound.
    + rewrite ?key_pinf, ?key_ninf. pose proof big_pos. destruct (isfin_cases i Ni) as [Fi|[->| ->]]; rewrite ?key_pinf, ?key_ninf in *; try lra.
    + rewrite (key_fin _ Fo), (key_fin _ Fi). destruct (Rlt_le_dec (B2R o) (B2R i)) as [L|L]; [exact L|]. exfalso. assert (crnd (B2R i - B2R o) <= 0) by (apply crnd_le0; lra). pose proof (TD_ge0 (B2R i)). lra.
  - apply fleb_spec. split; [reflexivity|]. split; [exact Ni|]. unfold INSIDE_MIN. rewrite key_fofZ by reflexivity. lra.
Qed.
Lemma dec_mono o i o' i' : fleb o' o = true -> fleb i i' = true -> dec o i = true -> dec o' i' = true.
Proof.
  intros Lo Li H. apply fleb_spec in Lo as (No' & No & Lo). apply fleb_spec in Li as (Ni & Ni' & Li). apply dec_spec in H as (_ & _ & K & O & H). apply dec_spec.
  split; [exact No'|]. split; [exact Ni'|]. split; [lra|]. split.
  { intros ->. rewrite ?key_pinf, ?key_ninf in Lo. destruct (isfin_cases o No) as [Fo|[->| ->]]; [|congruence|rewrite ?key_pinf, ?key_ninf in Lo; pose proof big_pos; lra]. rewrite (key_fin _ Fo) in Lo. generalize (fin_bound o). lra. }
  destruct (isfin_cases i' Ni') as [Fi'|[->| ->]]; [|auto|exfalso; rewrite ?key_pinf, ?key_ninf in Li; pose proof big_pos; lra].
  destruct (isfin_cases o' No') as [Fo'|[->| ->]]; [|exfalso|auto].
  2:{ rewrite ?key_pinf, ?key_ninf in Lo. destruct (isfin_cases o No) as [Fo|[->| ->]]; [|congruence|rewrite ?key_pinf, ?key_ninf in Lo; pose proof big_pos; lra]. rewrite (key_fin _ Fo) in Lo. generalize (fin_bound o). lra. }
  right. right. split; [exact Fo'|]. split; [exact Fi'|]. rewrite (key_fin _ Fi') in Li. rewrite (key_fin _ Fo') in Lo.
  destruct H as [->|[->|(Fo & Fi & H)]].
  - rewrite ?key_pinf, ?key_ninf in Li. generalize (fin_bound i'). lra.
  - rewrite ?key_pinf, ?key_ninf in Lo. generalize (fin_bound o'). lra.
  - rewrite (key_fin _ Fi) in Li. rewrite (key_fin _ Fo) in Lo. apply Rle_lt_trans with (1 := TD_anti _ _ Li). apply Rlt_le_trans with (1 := H). apply crnd_mono. lra.
Qed.
Lemma add_one_ge i : isnan i = false -> fleb i (fadd i TEMPDIFF_H) = true.
Proof.
  intros N. destruct (isfin_cases i N) as [F|[->| ->]]; [|reflexivity|reflexivity].
  destruct (fofZ_val 1 eq_refl) as [F1 V1]. destruct (fadd_key i TEMPDIFF_H F F1) as [N2 K2]. apply fleb_spec. split; [exact N|]. split; [exact N2|].
  rewrite K2, (key_fin _ F), <- (crnd_B2R i) at 1. apply crnd_mono. unfold TEMPDIFF_H. rewrite V1. lra.
Qed.
Lemma TD_hot i : 45 <= i -> TD i = 0.
Proof.
  intros L. apply Rle_antisym; [|apply TD_ge0]. apply Rle_trans with (1 := TD_anti _ _ L). destruct (fofZ_val 45 eq_refl) as [F V]. rewrite <- V. destruct (td_key (fofZ 45) F) as [_ K]. rewrite <- K.
  assert (E : fleb (tempDiff (fofZ 45)) fzero = true) by (vm_compute; reflexivity). apply fleb_spec in E as (_ & _ & E). now rewrite key_fzero in E.
Qed.
Lemma crnd_sub_pos x y : isfin x = true -> isfin y = true -> B2R y < B2R x -> 0 < crnd (B2R x - B2R y).
Proof.
  intros Fx Fy L. unfold crnd, clamp. assert (P : 0 < rnd (B2R x - B2R y)).
  { assert (N : rnd (B2R x + - B2R y) <> 0).
    { unfold rnd. apply (round_plus_neq_0 radix2 (SpecFloat.fexp 53 1024) ZnearestE); [apply generic_format_B2R|apply generic_format_opp, generic_format_B2R|]. lra. }
    assert (0 <= rnd (B2R x - B2R y)) by (apply rnd_ge0; lra). unfold Rminus in *. lra. }
  generalize big_pos. intros. apply Rlt_le_trans with (2 := Rmax_r _ _). apply Rmin_glb_lt; lra.
Qed.
Lemma dec_hot o i : fleb INSIDE_MAX i = true -> dec o i = fltb o i.
Proof.
  intros H. apply fleb_spec in H as (_ & Ni & H). unfold INSIDE_MAX in H. rewrite key_fofZ in H by reflexivity. apply eq_true_iff_eq. split; [apply dec_lt|].
  intros L. apply fltb_spec in L as (No & _ & L). apply dec_spec. split; [exact No|]. split; [exact Ni|]. split; [lra|]. split.
  { intros ->. rewrite ?key_pinf, ?key_ninf in L. generalize (key_bound i). lra. }
  destruct (isfin_cases i Ni) as [Fi|[->| ->]]; [|auto|rewrite ?key_pinf, ?key_ninf in H; pose proof big_pos; lra]. destruct (isfin_cases o No) as [Fo|[->| ->]]; [|rewrite ?key_pinf, ?key_ninf in L; generalize (key_bound i); lra|auto].
  right. right. split; [exact Fo|]. split; [exact Fi|]. rewrite (key_fin _ Fi) in *. rewrite (key_fin _ Fo) in *. rewrite TD_hot by exact H. now apply crnd_sub_pos.
Qed.

(** the threshold up to rounding *)
Lemma rnd_err r : Rabs r <= 16 -> Rabs (rnd r - r) <= bpow radix2 (-49).
Proof.
  intros B. unfold rnd. fold fexp64. pose proof (error_le_half_ulp radix2 fexp64 (fun x => negb (Z.even x)) r) as E.
  assert (U : ulp radix2 fexp64 r <= ulp radix2 fexp64 (bpow radix2 4)).
  { apply ulp_le; [exact fexp64_valid|apply FLT_exp_monotone|]. rewrite (Rabs_pos_eq (bpow radix2 4)) by apply bpow_ge_0. simpl. lra. }
  rewrite ulp_bpow in U. change (fexp64 (4 + 1)) with (-48)%Z in U. apply Rle_trans with (1 := E). replace (bpow radix2 (-49)) with (/ 2 * bpow radix2 (-48)) by (simpl; lra). lra.
Qed.
Lemma crnd_err r : Rabs r <= 16 -> Rabs (crnd r - r) <= bpow radix2 (-49).
Proof.
  intros B. rewrite crnd_rnd; [now apply rnd_err|]. assert (C : - 16 <= crnd r <= 16).
  { assert (E : crnd (bpow radix2 4) = bpow radix2 4) by (apply crnd_bpow; lia). assert (E16 : bpow radix2 4 = 16) by (simpl; lra). rewrite E16 in E. assert (E' : crnd (- (16)) = - (16)) by (rewrite crnd_opp, E; reflexivity). apply Rabs_le_inv in B. destruct B as [B1 B2]. apply crnd_mono in B1, B2. lra. }
  assert (16 < big); [|lra]. replace 16 with (bpow radix2 4) by (simpl; lra). apply bpow_lt. lia.
Qed.
Lemma m_near : Rabs (B2R td_m + 0.14) <= bpow radix2 (-50).
Proof.
  destruct (flit_val (-5044031582654956) (-55) eq_refl) as [F V]; [lia|]. assert (E : feqb td_m (flit (-5044031582654956) (-55)) = true) by (vm_compute; reflexivity).
  apply feqb_spec in E as (_ & _ & E). rewrite (key_fin _ m_fin), (key_fin _ F), V in E. rewrite E. simpl. unfold Rabs. destruct Rcase_abs; lra.
Qed.
Lemma b_near : Rabs (B2R td_b - 6.3) <= bpow radix2 (-49).
Proof.
  destruct (flit_val 7093169413108532 (-50) eq_refl) as [F V]; [lia|]. assert (E : feqb td_b (flit 7093169413108532 (-50)) = true) by (vm_compute; reflexivity).
  apply feqb_spec in E as (_ & _ & E). rewrite (key_fin _ b_fin), (key_fin _ F), V in E. rewrite E. simpl. unfold Rabs. destruct Rcase_abs; lra.
Qed.
Lemma TD_near i : 10 <= i <= 45 -> Rabs (TD i - (6.3 - 0.14 * i)) <= 80 * bpow radix2 (-49).
Proof.
  intros B. pose proof m_near as M. pose proof b_near as Bn. set (e := bpow radix2 (-49)) in *. assert (E50 : bpow radix2 (-50) = e / 2) by (unfold e; simpl; lra). rewrite E50 in M.
  assert (He : 0 < e <= / 1000000) by (unfold e; simpl; lra).
  assert (P1 : Rabs (B2R td_m * i + 0.14 * i) <= e / 2 * 45).
  { replace (B2R td_m * i + 0.14 * i) with ((B2R td_m + 0.14) * i) by ring. rewrite Rabs_mult. rewrite (Rabs_pos_eq i) by lra. apply Rmult_le_compat; try lra; apply Rabs_pos. }
  assert (A1 : Rabs (B2R td_m * i) <= 16). { apply Rabs_le. apply Rabs_le_inv in P1. lra. }
  pose proof (crnd_err _ A1) as E1. fold e in E1. apply Rabs_le_inv in E1, P1, Bn.
  assert (A2 : Rabs (crnd (B2R td_m * i) + B2R td_b) <= 16) by (apply Rabs_le; lra).
  pose proof (crnd_err _ A2) as E2. fold e in E2. apply Rabs_le_inv in E2. unfold TD.
  apply Rabs_le. unfold Rmax. destruct Rle_dec; lra.
Qed.
Lemma crnd_gt_sub x d e : 0 <= e -> d < e -> e <= 8 -> d + 2 * bpow radix2 (-49) <= e -> e <= x -> d < crnd x.
Proof.
  intros E0 _ E8 D L. assert (A : Rabs e <= 16) by (apply Rabs_le; lra). pose proof (crnd_err e A) as X. apply Rabs_le_inv in X. pose proof (crnd_mono _ _ L). pose proof (bpow_gt_0 radix2 (-49)). lra.
Qed.
