(** * Properties C04 and C06, continued: conversion to and from unit values in
    binary64, and repeated parameter names. *)
From Coq Require Import ZArith Reals Lra Lia Bool String List Sorting.Permutation.
From Flocq Require Import Core BinarySingleNaN Relative Plus_error.
From Verif Require Import Flt FltMore Py ParamModel ParamProofs ParamProps DataProps.
Import ListNotations.
Local Open Scope R_scope.

(** ** rounding errors *)
Definition e53 : R := bpow radix2 (-53).
Definition t1075 : R := bpow radix2 (-1075).
Lemma e53_small : 0 < e53 <= / 1000.
Proof. unfold e53. split; [apply bpow_gt_0|]. apply Rle_trans with (bpow radix2 (-10)); [apply bpow_le; lia|]. simpl. lra. Qed.
Lemma t1075_small : 0 < t1075 <= e53 / 8.
Proof.
  unfold t1075, e53. split; [apply bpow_gt_0|]. replace (bpow radix2 (-53) / 8) with (bpow radix2 (-56)); [apply bpow_le; lia|].
  change (-56)%Z with (-53 + -3)%Z. rewrite bpow_plus. simpl (bpow radix2 (-3)). lra.
Qed.
Lemma rnd_err x : Rabs (rnd x - x) <= e53 * Rabs x + t1075.
Proof.
  destruct (error_N_FLT radix2 (-1074) 53 ltac:(lia) (fun z => negb (Z.even z)) x) as (a & b & A & B & _ & E).
  change (rnd x = x * (1 + a) + b) in E. rewrite E.
  assert (A' : Rabs a <= e53). { unfold e53. replace (bpow radix2 (-53)) with (/ 2 * bpow radix2 (-53 + 1)); [exact A|]. rewrite bpow_plus. simpl (bpow radix2 1). lra. }
  assert (B' : Rabs b <= t1075). { unfold t1075. replace (bpow radix2 (-1075)) with (/ 2 * bpow radix2 (-1074)); [exact B|]. change (-1075)%Z with (-1074 + -1)%Z. rewrite bpow_plus. simpl (bpow radix2 (-1)). lra. }
  replace (x * (1 + a) + b - x) with (a * x + b) by ring. eapply Rle_trans; [apply Rabs_triang|]. apply Rplus_le_compat; [|exact B']. rewrite Rabs_mult. apply Rmult_le_compat_r; [apply Rabs_pos|exact A'].
Qed.
Lemma plus_err x y : generic_format radix2 fexp64 x -> generic_format radix2 fexp64 y -> Rabs (rnd (x + y) - (x + y)) <= e53 * Rabs (x + y).
Proof.
  intros X Y. rewrite fexp64_eq in X, Y. destruct (FLT_plus_error_N_ex radix2 (-1074) 53 (fun z => negb (Z.even z)) x y X Y) as (a & A & E). change (rnd (x + y) = (x + y) * (1 + a)) in E. rewrite E.
  replace ((x + y) * (1 + a) - (x + y)) with (a * (x + y)) by ring. rewrite Rabs_mult. apply Rmult_le_compat_r; [apply Rabs_pos|]. eapply Rle_trans; [exact A|].
  assert (U : u_ro radix2 53 = e53). { transitivity (/ 2 * bpow radix2 (-52)); [reflexivity|]. unfold e53. change (-53)%Z with (-52 + -1)%Z. rewrite bpow_plus. simpl (bpow radix2 (-1)). lra. }
  rewrite U. pose proof e53_small as [E0 _]. apply Rmult_le_reg_r with (1 + e53); [lra|]. unfold Rdiv. rewrite Rmult_assoc, Rinv_l by lra. nra.
Qed.
Lemma unclamp r : - big < clamp r < big -> clamp r = r.
Proof. unfold clamp. pose proof big_pos. unfold Rmax, Rmin. repeat destruct (Rle_dec _ _); lra. Qed.
Lemma crnd_mid x : Rabs x <= bpow radix2 1023 + bpow radix2 1022 -> crnd x = rnd x /\ - big < rnd x < big.
Proof.
  intros H. pose proof (rnd_err x) as E. pose proof e53_small. pose proof t1075_small. assert (P : 1 <= bpow radix2 1022) by (change 1 with (bpow radix2 0); apply bpow_le; lia).
  assert (B1 : bpow radix2 1023 = 2 * bpow radix2 1022) by (change 1023%Z with (1022 + 1)%Z; rewrite bpow_plus; simpl (bpow radix2 1); lra).
  assert (B2 : big = 4 * bpow radix2 1022) by (unfold big; change 1024%Z with (1022 + 2)%Z; rewrite bpow_plus; simpl (bpow radix2 2); lra).
  assert (EX : e53 * Rabs x <= / 1000 * Rabs x) by (apply Rmult_le_compat_r; [apply Rabs_pos|lra]).
  assert (R : - big < rnd x < big). { apply Rabs_le_inv in E. apply Rabs_le_inv in H as H'. split; lra. }
  split; [|exact R]. unfold crnd. apply clamp_id. lra.
Qed.
Lemma fsub_val x y : isfin x = true -> isfin y = true -> isfin (fsub x y) = true -> B2R (fsub x y) = rnd (B2R x - B2R y).
Proof.
  intros X Y F. destruct (fsub_key x y X Y) as [_ K]. rewrite key_fin in K by exact F. rewrite K. unfold crnd. apply unclamp. unfold crnd in K. rewrite <- K. apply fin_bound.
Qed.
Lemma fsub_err x y : isfin x = true -> isfin y = true -> isfin (fsub x y) = true -> Rabs (B2R (fsub x y) - (B2R x - B2R y)) <= e53 * Rabs (B2R x - B2R y).
Proof.
  intros X Y F. rewrite (fsub_val x y X Y F). unfold Rminus at 2 4. unfold Rminus at 2. apply plus_err; [apply generic_format_B2R|apply generic_format_opp, generic_format_B2R].
Qed.

(** ** the width of a range *)
Definition range (lo hi : f64) : Prop := okbound lo /\ okbound hi /\ fltb lo hi = true.
Lemma range_width lo hi : range lo hi -> isfin lo = true /\ isfin hi = true /\ B2R lo < B2R hi /\ isfin (fsub hi lo) = true /\ 0 < B2R (fsub hi lo) /\
  Rabs (B2R (fsub hi lo) - (B2R hi - B2R lo)) <= e53 * (B2R hi - B2R lo).
Proof.
  intros ([Fl Bl] & [Fh Bh] & L). apply fltb_spec in L as (_ & _ & L). rewrite !key_fin in L by assumption.
  assert (F := ParamProofs.diff_fin hi lo Fh Fl Bh Bl). split; [exact Fl|]. split; [exact Fh|]. split; [exact L|]. split; [exact F|]. split.
  - destruct (fsub_key hi lo Fh Fl) as [_ K]. rewrite key_fin in K by exact F. rewrite K. now apply sub_pos.
  - pose proof (fsub_err hi lo Fh Fl F) as E. rewrite (Rabs_pos_eq (B2R hi - B2R lo)) in E by lra. exact E.
Qed.

(** ** from a value to a unit value *)
Lemma fromUnity_parts lo hi u : range lo hi -> isfin u = true -> 0 <= B2R u <= 1 ->
  exists M, M = rnd (B2R (fsub hi lo) * B2R u) /\ isfin (fromUnity1 lo hi u) = true /\ 0 <= M <= B2R (fsub hi lo) /\
    Rabs (M - B2R (fsub hi lo) * B2R u) <= e53 * (B2R (fsub hi lo) * B2R u) + t1075 /\
    B2R (fromUnity1 lo hi u) = rnd (B2R lo + M) /\
    Rabs (B2R (fromUnity1 lo hi u) - (B2R lo + M)) <= e53 * Rabs (B2R lo + M).
Proof.
  intros RG Fu U. destruct (range_width lo hi RG) as (Fl & Fh & L & Fs & S0 & SE). destruct RG as ([_ Bl] & [_ Bh] & _). set (s := fsub hi lo) in *. set (m := fmul s u).
  assert (P0 : 0 <= B2R s * B2R u) by (apply Rmult_le_pos; lra). assert (P1 : B2R s * B2R u <= B2R s) by (rewrite <- (Rmult_1_r (B2R s)) at 2; apply Rmult_le_compat_l; lra).
  destruct (fmul_key s u Fs Fu) as [Nm Km]. fold m in Nm, Km.
  assert (M0 : 0 <= key m <= B2R s). { rewrite Km. split; [now apply crnd_ge0|]. rewrite <- (crnd_B2R s) at 2. now apply crnd_mono. }
  assert (Fm : isfin m = true). { apply fin_key; [exact Nm|]. pose proof (fin_bound s). pose proof big_pos. lra. }
  rewrite key_fin in M0, Km by exact Fm.
  assert (Vm : B2R m = rnd (B2R s * B2R u)). { rewrite Km. unfold crnd. apply unclamp. unfold crnd in Km. rewrite <- Km. apply fin_bound. }
  pose proof (rnd_err (B2R s * B2R u)) as EM. rewrite <- Vm, (Rabs_pos_eq (B2R s * B2R u)) in EM by exact P0.
  exists (B2R m). unfold fromUnity1. fold s. fold m. destruct (fadd_key lo m Fl Fm) as [Na Ka].
  pose proof e53_small as E53. apply Rabs_lt_inv in Bl, Bh. apply Rabs_le_inv in SE.
  assert (B23 : bpow radix2 1023 = 2 * bpow radix2 1022) by (change 1023%Z with (1022 + 1)%Z; rewrite bpow_plus; simpl (bpow radix2 1); lra).
  assert (EW : e53 * (B2R hi - B2R lo) <= / 1000 * (B2R hi - B2R lo)) by (apply Rmult_le_compat_r; lra).
  destruct (crnd_mid (B2R lo + B2R m)) as [C1 C2]; [apply Rabs_le; lra|]. rewrite C1 in Ka.
  assert (Fa : isfin (fadd lo m) = true) by (apply fin_key; [exact Na|rewrite Ka; exact C2]).
  rewrite key_fin in Ka by exact Fa. split; [exact Vm|]. split; [exact Fa|]. split; [exact M0|]. split; [exact EM|]. split; [exact Ka|]. rewrite Ka. apply plus_err; apply generic_format_B2R.
Qed.
Lemma toUnity_parts lo hi v : range lo hi -> isfin v = true -> B2R lo <= B2R v <= B2R hi ->
  exists D, isfin (toUnity1 lo hi v) = true /\ 0 <= D <= B2R (fsub hi lo) /\ Rabs (D - (B2R v - B2R lo)) <= e53 * (B2R v - B2R lo) /\
    D = rnd (B2R v - B2R lo) /\ B2R (toUnity1 lo hi v) = rnd (D / B2R (fsub hi lo)) /\
    0 <= B2R (toUnity1 lo hi v) <= 1 /\ Rabs (B2R (toUnity1 lo hi v) - D / B2R (fsub hi lo)) <= e53 * (D / B2R (fsub hi lo)) + t1075.
Proof.
  intros RG Fv V. destruct (range_width lo hi RG) as (Fl & Fh & L & Fs & S0 & SE). destruct RG as ([_ Bl] & [_ Bh] & _). set (s := fsub hi lo) in *.
  apply Rabs_lt_inv in Bl as Bl', Bh as Bh'. assert (Bv : Rabs (B2R v) < bpow radix2 1023) by (apply Rabs_lt; lra).
  assert (Fd := ParamProofs.diff_fin v lo Fv Fl Bv Bl). pose proof (fsub_val v lo Fv Fl Fd) as Vd. pose proof (fsub_err v lo Fv Fl Fd) as Ed. rewrite (Rabs_pos_eq (B2R v - B2R lo)) in Ed by lra.
  exists (B2R (fsub v lo)). set (d := fsub v lo) in *. pose proof (fsub_val hi lo Fh Fl Fs) as Vs. fold s in Vs.
  assert (D0 : 0 <= B2R d <= B2R s). { rewrite Vd, Vs. split; [rewrite <- rnd_0; apply rnd_mono; lra|apply rnd_mono; lra]. }
  destruct (fdiv_key d s Fd Fs ltac:(lra)) as [Nq Kq].
  assert (Q0 : 0 <= B2R d / B2R s <= 1). { split; [apply Rmult_le_pos; [lra|left; now apply Rinv_0_lt_compat]|]. apply Rmult_le_reg_r with (B2R s); [exact S0|]. unfold Rdiv. rewrite Rmult_assoc, Rinv_l by lra. lra. }
  destruct (crnd_mid (B2R d / B2R s)) as [C1 C2]. { assert (1 <= bpow radix2 1022) by (change 1 with (bpow radix2 0); apply bpow_le; lia). pose proof (bpow_gt_0 radix2 1023). apply Rabs_le. lra. }
  rewrite C1 in Kq. unfold toUnity1. fold s d. assert (Fq : isfin (fdiv d s) = true) by (apply fin_key; [exact Nq|rewrite Kq; exact C2]). rewrite key_fin in Kq by exact Fq.
  split; [exact Fq|]. split; [exact D0|]. split; [exact Ed|]. split; [exact Vd|]. split; [exact Kq|]. split.
  - rewrite Kq, <- C1. split; [apply crnd_ge0; lra|]. rewrite <- crnd_1. apply crnd_mono. lra.
  - rewrite Kq. pose proof (rnd_err (B2R d / B2R s)) as E. rewrite (Rabs_pos_eq (B2R d / B2R s)) in E by lra. exact E.
Qed.

(** ** C04 in binary64 *)
Lemma unit_fin u : fleb fzero u = true -> fleb u fone = true -> isfin u = true /\ 0 <= B2R u <= 1.
Proof.
  intros A B. apply fleb_spec in A as (_ & N & A), B as (_ & _ & B). rewrite key_fone in B. change (key fzero) with 0 in A.
  assert (F : isfin u = true). { apply fin_key; [exact N|]. assert (1 < big) by (change 1 with (bpow radix2 0); apply bpow_lt; lia). lra. }
  rewrite key_fin in A, B by exact F. auto.
Qed.
Lemma mid_fin lo hi v : range lo hi -> fleb lo v = true -> fleb v hi = true -> isfin v = true /\ B2R lo <= B2R v <= B2R hi.
Proof.
  intros ([Fl _] & [Fh _] & _) A B. apply fleb_spec in A as (_ & N & A), B as (_ & _ & B). rewrite (key_fin lo Fl) in A. rewrite (key_fin hi Fh) in B.
  assert (F : isfin v = true). { apply fin_key; [exact N|]. pose proof (fin_bound lo). pose proof (fin_bound hi). lra. }
  rewrite key_fin in A, B by exact F. auto.
Qed.
Lemma feqb_val x y : isfin x = true -> isfin y = true -> B2R x = B2R y -> feqb x y = true.
Proof. intros X Y E. apply feqb_spec. rewrite !key_fin by assumption. repeat split; auto using nan_fin. Qed.
Lemma fleb_val x y : isfin x = true -> isfin y = true -> B2R x <= B2R y -> fleb x y = true.
Proof. intros X Y E. apply fleb_spec. rewrite !key_fin by assumption. repeat split; auto using nan_fin. Qed.
Lemma fone_val : isfin fone = true /\ B2R fone = 1.
Proof. pose proof key_fone as K. assert (F : isfin fone = true) by reflexivity. rewrite key_fin in K by exact F. auto. Qed.
(** the ends of a range are exactly the unit values 0 and 1, and 0 is converted to
    the lower bound *)
Theorem C04_float_ends : forall lo hi, okbound lo -> okbound hi -> fltb lo hi = true ->
  feqb (toUnity1 lo hi lo) fzero = true /\ feqb (toUnity1 lo hi hi) fone = true /\ feqb (fromUnity1 lo hi fzero) lo = true.
Proof.
  intros lo hi Ol Oh LT. assert (RG : range lo hi) by (split; auto). destruct (range_width lo hi RG) as (Fl & Fh & L & Fs & S0 & _). destruct fone_val as [F1 V1].
  split; [|split].
  - destruct (toUnity_parts lo hi lo RG Fl ltac:(lra)) as (D & F & _ & _ & ED & EQ & _). apply feqb_val; [exact F|reflexivity|]. rewrite EQ, ED. replace (B2R lo - B2R lo) with 0 by ring. rewrite rnd_0. unfold Rdiv. rewrite Rmult_0_l. exact rnd_0.
  - destruct (toUnity_parts lo hi hi RG Fh ltac:(lra)) as (D & F & _ & _ & ED & EQ & _). apply feqb_val; [exact F|exact F1|]. rewrite EQ, ED, <- (fsub_val hi lo Fh Fl Fs). unfold Rdiv. rewrite Rinv_r by lra. rewrite <- V1. apply rnd_B2R.
  - destruct (fromUnity_parts lo hi fzero RG eq_refl ltac:(change (B2R fzero) with 0; lra)) as (M & EM & F & _ & _ & ER & _). apply feqb_val; [exact F|exact Fl|]. rewrite ER, EM. change (B2R fzero) with 0. rewrite Rmult_0_r, rnd_0, Rplus_0_r. apply rnd_B2R.
Qed.
Print Assumptions C04_float_ends.
(** both conversions keep the order, though different numbers can become equal *)
Theorem C04_float_order : forall lo hi, okbound lo -> okbound hi -> fltb lo hi = true ->
  (forall u u', fleb fzero u = true -> fleb u u' = true -> fleb u' fone = true -> fleb (fromUnity1 lo hi u) (fromUnity1 lo hi u') = true) /\
  (forall v v', fleb lo v = true -> fleb v v' = true -> fleb v' hi = true ->
     fleb (toUnity1 lo hi v) (toUnity1 lo hi v') = true /\ fleb fzero (toUnity1 lo hi v) = true /\ fleb (toUnity1 lo hi v) fone = true).
Proof.
  intros lo hi Ol Oh LT. assert (RG : range lo hi) by (split; auto). destruct (range_width lo hi RG) as (Fl & Fh & L & Fs & S0 & _). destruct fone_val as [F1 V1]. split.
  - intros u u' A B C. assert (B' := B). apply fleb_spec in B' as (_ & _ & B').
    assert (A1 : fleb fzero u' = true). { apply fleb_spec in A as (NA & NB & A), B as (_ & N & B). apply fleb_spec. repeat split; auto. lra. }
    assert (C1 : fleb u fone = true). { apply fleb_spec in C as (NA & NB & C), B as (N & _ & B). apply fleb_spec. repeat split; auto. lra. }
    destruct (unit_fin u A C1) as [Fu U]. destruct (unit_fin u' A1 C) as [Fu' U']. rewrite !key_fin in B' by assumption.
    destruct (fromUnity_parts lo hi u RG Fu U) as (M & EM & F & _ & _ & ER & _). destruct (fromUnity_parts lo hi u' RG Fu' U') as (M' & EM' & F' & _ & _ & ER' & _).
    apply fleb_val; [exact F|exact F'|]. rewrite ER, ER'. apply rnd_mono. apply Rplus_le_compat_l. rewrite EM, EM'. apply rnd_mono. apply Rmult_le_compat_l; lra.
  - intros v v' A B C. assert (B' := B). apply fleb_spec in B' as (_ & _ & B').
    assert (A1 : fleb lo v' = true). { apply fleb_spec in A as (NA & NB & A), B as (_ & N & B). apply fleb_spec. repeat split; auto. lra. }
    assert (C1 : fleb v hi = true). { apply fleb_spec in C as (NA & NB & C), B as (N & _ & B). apply fleb_spec. repeat split; auto. lra. }
    destruct (mid_fin lo hi v RG A C1) as [Fv V]. destruct (mid_fin lo hi v' RG A1 C) as [Fv' V']. rewrite !key_fin in B' by assumption.
    destruct (toUnity_parts lo hi v RG Fv V) as (D & F & _ & _ & ED & EQ & Q & _). destruct (toUnity_parts lo hi v' RG Fv' V') as (D' & F' & _ & _ & ED' & EQ' & _).
    split; [|split; apply fleb_val; auto; [change (B2R fzero) with 0; lra|rewrite V1; lra]].
    apply fleb_val; [exact F|exact F'|]. rewrite EQ, EQ'. apply rnd_mono. apply Rmult_le_compat_r; [left; now apply Rinv_0_lt_compat|]. rewrite ED, ED'. apply rnd_mono. lra.
Qed.
Print Assumptions C04_float_order.
(** a value converted there and back is changed by a rounding error only *)
Theorem C04_float_value : forall lo hi v, okbound lo -> okbound hi -> fltb lo hi = true -> fleb lo v = true -> fleb v hi = true ->
  isfin (fromUnity1 lo hi (toUnity1 lo hi v)) = true /\
  Rabs (B2R (fromUnity1 lo hi (toUnity1 lo hi v)) - B2R v) <= bpow radix2 (-53) * Rabs (B2R v) + bpow radix2 (-51) * (B2R hi - B2R lo) + bpow radix2 (-1074).
Proof.
  intros lo hi v Ol Oh LT A B. assert (RG : range lo hi) by (split; auto). destruct (range_width lo hi RG) as (Fl & Fh & L & Fs & S0 & SE).
  destruct (mid_fin lo hi v RG A B) as [Fv V]. destruct (toUnity_parts lo hi v RG Fv V) as (D & Fq & D0 & DE & _ & _ & Q & QE).
  destruct (fromUnity_parts lo hi _ RG Fq Q) as (M & _ & Fr & M0 & ME & _ & RE). split; [exact Fr|].
  set (q := B2R (toUnity1 lo hi v)) in *. set (S := B2R (fsub hi lo)) in *. set (r := B2R (fromUnity1 lo hi (toUnity1 lo hi v))) in *. set (l := B2R lo) in *. set (h := B2R hi) in *. set (x := B2R v) in *.
  replace (bpow radix2 (-51)) with (4 * e53) by (unfold e53; change (-51)%Z with (-53 + 2)%Z; rewrite bpow_plus; simpl (bpow radix2 2); lra).
  replace (bpow radix2 (-1074)) with (2 * t1075) by (unfold t1075; change (-1074)%Z with (-1075 + 1)%Z; rewrite bpow_plus; simpl (bpow radix2 1); lra).
  fold e53. pose proof e53_small as E. pose proof t1075_small as T. set (e := e53) in *. set (t := t1075) in *. clearbody e t q S r l h x.
  assert (SQ : Rabs (S * q - D) <= e * D + S * t).
  { replace (S * q - D) with (S * (q - D / S)) by (field; lra). rewrite Rabs_mult, (Rabs_pos_eq S) by lra. apply Rle_trans with (S * (e * (D / S) + t)); [apply Rmult_le_compat_l; lra|]. right. field. lra. }
  assert (P1 : S * q <= S) by (rewrite <- (Rmult_1_r S) at 2; apply Rmult_le_compat_l; lra).
  assert (P2 : e * (S * q) <= e * S) by (apply Rmult_le_compat_l; lra). assert (P3 : e * D <= e * S) by (apply Rmult_le_compat_l; lra).
  assert (P4 : S * t <= e * S / 8) by (replace (e * S / 8) with (S * (e / 8)) by field; apply Rmult_le_compat_l; lra).
  assert (EW0 : 0 <= e * (h - l)) by (apply Rmult_le_pos; lra). assert (EW : e * (h - l) <= / 1000 * (h - l)) by (apply Rmult_le_compat_r; lra).
  assert (P5 : e * S <= e * (h - l) + / 1000 * (e * (h - l))). { apply Rabs_le_inv in SE. apply Rle_trans with (e * (h - l + e * (h - l))); [apply Rmult_le_compat_l; lra|]. rewrite Rmult_plus_distr_l. apply Rplus_le_compat_l. apply Rmult_le_compat_r; lra. }
  assert (P6 : e * (x - l) <= e * (h - l)) by (apply Rmult_le_compat_l; lra).
  set (w := e * (h - l)) in *. set (z := Rabs (M - (x - l))).
  assert (Z : z <= 32 / 10 * w + t). { unfold z. apply Rabs_le_inv in ME, SQ, DE. apply Rabs_le. lra. }
  assert (LM : Rabs (l + M) <= Rabs x + z). { replace (l + M) with (x + (M - (x - l))) by ring. apply Rabs_triang. }
  assert (P7 : e * Rabs (l + M) <= e * Rabs x + / 1000 * z). { apply Rle_trans with (e * (Rabs x + z)); [apply Rmult_le_compat_l; lra|]. rewrite Rmult_plus_distr_l. apply Rplus_le_compat_l. apply Rmult_le_compat_r; [apply Rabs_pos|lra]. }
  replace (r - x) with ((r - (l + M)) + (M - (x - l))) by ring. eapply Rle_trans; [apply Rabs_triang|]. fold z. replace (4 * e * (h - l)) with (4 * w) by (unfold w; ring). lra.
Qed.
Print Assumptions C04_float_value.
(** neighbouring floats are not too close *)
Lemma gap_pos x y : generic_format radix2 fexp64 x -> generic_format radix2 fexp64 y -> 0 <= x -> x < y -> e53 * y <= (1 + e53) * (y - x).
Proof.
  intros X Y P L. assert (X' := X). assert (Y' := Y). rewrite fexp64_eq in X', Y'.
  assert (G : x + ulp radix2 (FLT_exp (-1074) 53) x <= y). { rewrite <- succ_eq_pos by exact P. apply succ_le_lt; auto with typeclass_instances. }
  assert (U := ulp_FLT_gt radix2 (-1074) 53 x). rewrite (Rabs_pos_eq x P) in U. change (x * e53 < ulp radix2 (FLT_exp (-1074) 53) x) in U. pose proof e53_small. lra.
Qed.
Lemma gap x y : generic_format radix2 fexp64 x -> generic_format radix2 fexp64 y -> x < y -> e53 * Rmax (Rabs x) (Rabs y) <= (1 + e53) * (y - x).
Proof.
  intros X Y L. pose proof e53_small as E. destruct (Rle_or_lt 0 x) as [P|P].
  - rewrite !Rabs_pos_eq by lra. rewrite Rmax_right by lra. now apply gap_pos.
  - rewrite (Rabs_left x) by lra. destruct (Rle_or_lt y 0) as [Q|Q].
    + rewrite (Rabs_left1 y) by lra. rewrite Rmax_left by lra. pose proof (gap_pos (- y) (- x) (generic_format_opp _ _ _ Y) (generic_format_opp _ _ _ X)) as G. specialize (G ltac:(lra) ltac:(lra)). replace (- x - - y) with (y - x) in G by ring. exact G.
    + rewrite Rabs_pos_eq by lra. assert (M : Rmax (- x) y <= y - x) by (apply Rmax_lub; lra). assert (e53 * Rmax (- x) y <= e53 * (y - x)) by (apply Rmult_le_compat_l; lra). lra.
Qed.
(** so is a unit value, in relation to the width of the range *)
Theorem C04_float_unit : forall lo hi u, isfin lo = true -> isfin hi = true -> Rabs (B2R lo) < bpow radix2 1022 -> Rabs (B2R hi) < bpow radix2 1022 ->
  fltb lo hi = true -> fleb fzero u = true -> fleb u fone = true ->
  isfin (toUnity1 lo hi (fromUnity1 lo hi u)) = true /\
  Rabs (B2R (toUnity1 lo hi (fromUnity1 lo hi u)) - B2R u) <=
    bpow radix2 (-51) + (bpow radix2 (-52) * Rmax (Rabs (B2R lo)) (Rabs (B2R hi)) + bpow radix2 (-1074)) / (B2R hi - B2R lo).
Proof.
  intros lo hi u Fl Fh Bl Bh LT A B. assert (P23 : bpow radix2 1023 = 2 * bpow radix2 1022) by (change 1023%Z with (1022 + 1)%Z; rewrite bpow_plus; simpl (bpow radix2 1); lra).
  assert (P22 := bpow_gt_0 radix2 1022). assert (RG : range lo hi) by (split; [split; auto; lra|split; [split; auto; lra|auto]]). destruct (range_width lo hi RG) as (_ & _ & L & Fs & S0 & SE).
  destruct (unit_fin u A B) as [Fu U]. destruct (fromUnity_parts lo hi u RG Fu U) as (M & _ & Fr & M0 & ME & _ & RE).
  pose proof (gap (B2R lo) (B2R hi) (generic_format_B2R _ _ lo) (generic_format_B2R _ _ hi) L) as G.
  assert (TW : 2 * t1075 <= B2R hi - B2R lo).
  { destruct (format_units (B2R lo) (generic_format_B2R 53 1024 lo)) as (a & Ea). destruct (format_units (B2R hi) (generic_format_B2R 53 1024 hi)) as (b & Eb).
    assert (P : 0 < bpow radix2 (-1074)) by apply bpow_gt_0. assert (ab : (a < b)%Z). { apply lt_IZR. apply (Rmult_lt_reg_r (bpow radix2 (-1074))); [exact P|]. now rewrite <- Ea, <- Eb. }
    replace (2 * t1075) with (bpow radix2 (-1074)) by (unfold t1075; change (-1074)%Z with (-1075 + 1)%Z; rewrite bpow_plus; simpl (bpow radix2 1); lra).
    rewrite Ea, Eb, <- Rmult_minus_distr_r, <- minus_IZR. rewrite <- (Rmult_1_l (bpow radix2 (-1074))) at 1. apply Rmult_le_compat_r; [lra|]. apply (IZR_le 1). lia. }
  replace (bpow radix2 (-51)) with (4 * e53) by (unfold e53; change (-51)%Z with (-53 + 2)%Z; rewrite bpow_plus; simpl (bpow radix2 2); lra).
  replace (bpow radix2 (-52)) with (2 * e53) by (unfold e53; change (-52)%Z with (-53 + 1)%Z; rewrite bpow_plus; simpl (bpow radix2 1); lra).
  replace (bpow radix2 (-1074)) with (2 * t1075) by (unfold t1075; change (-1074)%Z with (-1075 + 1)%Z; rewrite bpow_plus; simpl (bpow radix2 1); lra).
  pose proof e53_small as E. pose proof t1075_small as T.
  set (x := B2R (fromUnity1 lo hi u)) in *. set (S := B2R (fsub hi lo)) in *. set (mx := Rmax (Rabs (B2R lo)) (Rabs (B2R hi))) in *.
  assert (MX : mx < bpow radix2 1022) by (apply Rmax_lub_lt; assumption). assert (ML : Rabs (B2R lo) <= mx) by apply Rmax_l. assert (MH : Rabs (B2R hi) <= mx) by apply Rmax_r.
  set (W := B2R hi - B2R lo) in *. assert (W0 : 0 < W) by (unfold W; lra). apply Rabs_le_inv in ML, MH, SE.
  assert (EW0 : 0 <= e53 * W) by (apply Rmult_le_pos; lra). assert (EW : e53 * W <= / 1000 * W) by (apply Rmult_le_compat_r; lra).
  assert (WM : W <= 2 * mx) by (unfold W; lra). assert (mx0 : 0 <= mx) by lra.
  assert (EM : e53 * mx <= / 1000 * mx) by (apply Rmult_le_compat_r; lra). assert (EWM : e53 * W <= 2 * (e53 * mx)) by (replace (2 * (e53 * mx)) with (e53 * (2 * mx)) by ring; apply Rmult_le_compat_l; lra).
  (* the value *)
  assert (LM : Rabs (B2R lo + M) <= mx + e53 * W) by (apply Rabs_le; unfold W in *; lra).
  assert (X1 : Rabs (x - (B2R lo + M)) <= 11 / 10 * (e53 * mx)).
  { eapply Rle_trans; [exact RE|]. apply Rle_trans with (e53 * (mx + e53 * W)); [apply Rmult_le_compat_l; lra|]. rewrite Rmult_plus_distr_l. assert (e53 * (e53 * W) <= / 1000 * (e53 * W)) by (apply Rmult_le_compat_r; lra). lra. }
  assert (SU0 : 0 <= S * B2R u) by (apply Rmult_le_pos; lra). assert (SU1 : S * B2R u <= S) by (rewrite <- (Rmult_1_r S) at 2; apply Rmult_le_compat_l; lra).
  assert (ESU : e53 * (S * B2R u) <= e53 * S) by (apply Rmult_le_compat_l; lra).
  assert (X2 : Rabs (x - B2R lo - S * B2R u) <= e53 * S + t1075 + 11 / 10 * (e53 * mx)) by (apply Rabs_le_inv in X1, ME; apply Rabs_le; lra).
  assert (BX : Rabs x < bpow radix2 1023) by (apply Rabs_le_inv in X1, LM; apply Rabs_lt; lra).
  assert (Fd := ParamProofs.diff_fin _ lo Fr Fl BX ltac:(lra)). pose proof (fsub_err _ lo Fr Fl Fd) as DE. fold x in DE.
  assert (XL : e53 * Rabs (x - B2R lo) <= e53 * S + / 1000 * (e53 * S + t1075 + 11 / 10 * (e53 * mx))).
  { apply Rle_trans with (e53 * (S + (e53 * S + t1075 + 11 / 10 * (e53 * mx)))).
    - apply Rmult_le_compat_l; [lra|]. apply Rabs_le_inv in X2. apply Rabs_le. assert (0 <= e53 * S) by (apply Rmult_le_pos; lra). lra.
    - rewrite (Rmult_plus_distr_l e53 S). apply Rplus_le_compat_l. apply Rmult_le_compat_r; [|lra]. assert (0 <= e53 * S) by (apply Rmult_le_pos; lra). assert (0 <= e53 * mx) by (apply Rmult_le_pos; lra). lra. }
  set (d := fsub (fromUnity1 lo hi u) lo) in *.
  assert (DS : Rabs (B2R d - S * B2R u) <= 21 / 10 * (e53 * S) + 11 / 10 * t1075 + 12 / 10 * (e53 * mx)).
  { assert (0 <= e53 * S) by (apply Rmult_le_pos; lra). assert (0 <= e53 * mx) by (apply Rmult_le_pos; lra). apply Rabs_le_inv in DE, X2. apply Rabs_le. lra. }
  assert (SW : S <= 1001 / 1000 * W) by lra. assert (WS : 999 / 1000 * W <= S) by lra.
  (* the unit value *)
  assert (Q1 : Rabs (B2R d / S - B2R u) <= 21 / 10 * e53 + (115 / 100 * t1075 + 125 / 100 * (e53 * mx)) / W).
  { replace (B2R d / S - B2R u) with ((B2R d - S * B2R u) * / S) by (field; lra). rewrite Rabs_mult, (Rabs_pos_eq (/ S)) by (left; now apply Rinv_0_lt_compat).
    apply Rle_trans with ((21 / 10 * (e53 * S) + 11 / 10 * t1075 + 12 / 10 * (e53 * mx)) * / S); [apply Rmult_le_compat_r; [left; now apply Rinv_0_lt_compat|exact DS]|].
    assert (IW : 0 < / W) by now apply Rinv_0_lt_compat.
    assert (I : / S <= 1002 / 1000 * / W). { apply Rmult_le_reg_r with S; [lra|]. rewrite Rinv_l by lra. apply Rle_trans with (1002 / 1000 * / W * (999 / 1000 * W)); [replace (1002 / 1000 * / W * (999 / 1000 * W)) with (1002 / 1000 * (999 / 1000)) by (field; lra); lra|apply Rmult_le_compat_l; lra]. }
    assert (0 <= e53 * mx) by (apply Rmult_le_pos; lra). assert (tw0 : 0 <= t1075 * / W) by (apply Rmult_le_pos; lra). assert (mw0 : 0 <= e53 * mx * / W) by (apply Rmult_le_pos; lra).
    replace ((21 / 10 * (e53 * S) + 11 / 10 * t1075 + 12 / 10 * (e53 * mx)) * / S) with (21 / 10 * e53 + (11 / 10 * t1075 + 12 / 10 * (e53 * mx)) * / S) by (field; lra). apply Rplus_le_compat_l.
    apply Rle_trans with ((11 / 10 * t1075 + 12 / 10 * (e53 * mx)) * (1002 / 1000 * / W)); [apply Rmult_le_compat_l; lra|].
    replace ((11 / 10 * t1075 + 12 / 10 * (e53 * mx)) * (1002 / 1000 * / W)) with (11022 / 10000 * (t1075 * / W) + 12024 / 10000 * (e53 * mx * / W)) by (field; lra).
    replace ((115 / 100 * t1075 + 125 / 100 * (e53 * mx)) / W) with (115 / 100 * (t1075 * / W) + 125 / 100 * (e53 * mx * / W)) by (unfold Rdiv; ring). lra. }
  assert (IW : 0 < / W) by now apply Rinv_0_lt_compat. set (tw := t1075 * / W). set (mw := e53 * mx * / W).
  assert (tw0 : 0 <= tw) by (apply Rmult_le_pos; lra). assert (mw0 : 0 <= mw) by (apply Rmult_le_pos; [apply Rmult_le_pos; lra|lra]).
  assert (tw1 : tw <= / 2). { unfold tw. apply Rmult_le_reg_r with W; [exact W0|]. rewrite Rmult_assoc, Rinv_l by lra. lra. }
  assert (mw1 : mw <= 1 + e53). { unfold mw. apply Rmult_le_reg_r with W; [exact W0|]. rewrite Rmult_assoc, Rinv_l by lra. lra. }
  replace ((115 / 100 * t1075 + 125 / 100 * (e53 * mx)) / W) with (115 / 100 * tw + 125 / 100 * mw) in Q1 by (unfold tw, mw, Rdiv; ring).
  replace ((2 * e53 * mx + 2 * t1075) / W) with (2 * tw + 2 * mw) by (unfold tw, mw, Rdiv; ring).
  destruct (fdiv_key d (fsub hi lo) Fd Fs ltac:(fold S; lra)) as [Nq Kq]. fold S in Kq. set (q0 := B2R d / S) in *.
  assert (Q4 : Rabs q0 <= 4) by (apply Rabs_le_inv in Q1; apply Rabs_le; lra).
  destruct (crnd_mid q0) as [C1 C2]. { assert (4 <= bpow radix2 1022) by (change 4 with (bpow radix2 2); apply bpow_le; lia). lra. }
  rewrite C1 in Kq. unfold toUnity1. fold d. assert (Fq : isfin (fdiv d (fsub hi lo)) = true) by (apply fin_key; [exact Nq|rewrite Kq; exact C2]). rewrite key_fin in Kq by exact Fq. split; [exact Fq|]. rewrite Kq.
  pose proof (rnd_err q0) as EQ. set (z := Rabs (q0 - B2R u)) in *.
  assert (QU : Rabs q0 <= 1 + z). { replace q0 with (B2R u + (q0 - B2R u)) by ring. eapply Rle_trans; [apply Rabs_triang|]. apply Rplus_le_compat_r. apply Rabs_le. lra. }
  assert (z0 : 0 <= z) by apply Rabs_pos.
  assert (EQ2 : e53 * Rabs q0 <= e53 + / 1000 * z). { apply Rle_trans with (e53 * (1 + z)); [apply Rmult_le_compat_l; lra|]. rewrite Rmult_plus_distr_l, Rmult_1_r. apply Rplus_le_compat_l. apply Rmult_le_compat_r; lra. }
  replace (rnd q0 - B2R u) with ((rnd q0 - q0) + (q0 - B2R u)) by ring. eapply Rle_trans; [apply Rabs_triang|]. fold z. lra.
Qed.
Print Assumptions C04_float_unit.
Example C04_float_ex : okbound (fofZ (-1)) /\ okbound (fofZ 2) /\ fltb (fofZ (-1)) (fofZ 2) = true /\ fleb (fofZ (-1)) (flit 1 (-3)) = true /\ fleb (flit 1 (-3)) (fofZ 2) = true /\
  fleb fzero (flit 3 (-3)) = true /\ fleb (flit 3 (-3)) fone = true /\ feqb (toUnity1 (fofZ (-1)) (fofZ 2) (flit 1 (-3))) (flit 3 (-3)) = true /\
  feqb (fromUnity1 (fofZ (-1)) (fofZ 2) (flit 3 (-3))) (flit 1 (-3)) = true.
Proof. split; [apply okbound_dec; reflexivity|]. split; [apply okbound_dec; reflexivity|]. repeat split; vm_compute; reflexivity. Qed.
(** there and back is not always the same number: lower bound -1, upper bound 2, and
    a tenth of that width *)
Theorem C04_float_exact_refuted : exists lo hi u, okbound lo /\ okbound hi /\ fltb lo hi = true /\ fleb fzero u = true /\ fleb u fone = true /\
  feqb (toUnity1 lo hi (fromUnity1 lo hi u)) u = false.
Proof.
  exists (fofZ (-1)), (fofZ 2), (fdiv fone (fofZ 10)). split; [apply okbound_dec; reflexivity|]. split; [apply okbound_dec; reflexivity|]. repeat split; vm_compute; reflexivity.
Qed.
Print Assumptions C04_float_exact_refuted.

(** ** C06: repeated names *)
(** a name's first position is visited as often as the name occurs, its other
    positions are never visited *)
Theorem C06_duplicates : forall names i n, nth_error names i = Some n ->
  ((forall h, (h < i)%nat -> nth_error names h <> Some n) -> count_occ Nat.eq_dec (sortedNameIndices names) i = count_occ string_dec names n) /\
  (forall h, (h < i)%nat -> nth_error names h = Some n -> ~ In i (sortedNameIndices names)).
Proof.
  intros names i n E. assert (IN : In n names) by (eapply nth_error_In; eauto). destruct (sindex_nth names n IN) as [S1 S2]. split.
  - intros F. assert (SI : sindex names n = i). { destruct (lt_eq_lt_dec (sindex names n) i) as [[H|H]|H]; [exfalso; now apply (F _ H)|exact H|exfalso; now apply (S2 _ H)]. }
    unfold sortedNameIndices. rewrite <- (proj1 (Permutation_count_occ string_dec (ssort names) names) (ssort_perm names) n).
    assert (SUB : forall m, In m (ssort names) -> In m names) by (intros m H; eapply Permutation_in; [apply ssort_perm|exact H]).
    induction (ssort names) as [|m l IH]; [reflexivity|]. cbn [map count_occ]. rewrite IH by (intros; apply SUB; now right).
    destruct (string_dec m n) as [->|NE]; [rewrite SI; destruct (Nat.eq_dec i i); congruence|]. destruct (Nat.eq_dec (sindex names m) i) as [Q|_]; [|reflexivity].
    destruct (sindex_nth names m (SUB m (or_introl eq_refl))) as [M1 _]. rewrite Q, E in M1. congruence.
  - intros h H Eh I. unfold sortedNameIndices in I. apply in_map_iff in I as (m & Q & I). assert (IM : In m names) by (eapply Permutation_in; [apply ssort_perm|exact I]).
    destruct (sindex_nth names m IM) as [M1 M2]. rewrite Q in M1, M2. rewrite E in M1. injection M1 as <-. now apply (M2 h).
Qed.
Print Assumptions C06_duplicates.
Example C06_duplicates_ex : sortedNameIndices ["b"; "a"; "b"; "c"; "b"]%string = [1; 0; 0; 0; 3]%nat.
Proof. reflexivity. Qed.
