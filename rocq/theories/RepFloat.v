(** * msgRatio in binary64: lemmas *)
From Coq Require Import String List Bool Arith ZArith Reals Lra Lia Psatz.
From Flocq Require Import Core BinarySingleNaN Sterbenz.
From Verif Require Import Flt FltMore Py IndivModel RepModel RepProofs SampFloat AnalRange.
Import ListNotations.
Local Open Scope R_scope.

Lemma frint_fin : forall x, isfin x = true -> isfin (frint x) = true /\ B2R (frint x) = IZR (ZnearestE (B2R x)).
Proof.
  intros x F. unfold frint. destruct (Bnearbyint_correct 53 1024 Hmax64 mode_NE x) as (A & B & C). split; [unfold isfin; rewrite B; exact F|].
  rewrite A. apply round_FIX_IZR.
Qed.
Lemma nearest_ge1 : forall r, 1 <= r -> (1 <= ZnearestE r)%Z.
Proof. intros r H. rewrite <- (Zrnd_IZR ZnearestE 1). apply Zrnd_le; auto with typeclass_instances. Qed.
Lemma nonneg_sse : forall i, isnan (ind_SSE i) = false -> 0 <= key (ind_SSE i).
Proof.
  intros i N. unfold ind_SSE in *. destruct (istored i) as [x|]; [|simpl; generalize big_pos; lra]. destruct (fltb x fzero) eqn:E; [simpl; generalize big_pos; lra|].
  apply fltb_false in E; auto.
Qed.
Lemma not_bogus : forall i, bogus i = false -> isfin (ind_SSE i) = true /\ 0 <= B2R (ind_SSE i).
Proof.
  intros i H. unfold bogus in H. apply orb_false_iff in H as [A B]. assert (F : isfin (ind_SSE i) = true).
  { destruct (isfin_cases _ A) as [F|[E|E]]; auto; rewrite E in B; discriminate. }
  split; auto. rewrite <- key_fin by auto. now apply nonneg_sse.
Qed.
Lemma quotient_ge1 : forall n d, isfin n = true -> isfin d = true -> 0 < B2R d <= B2R n ->
  isnan (fdiv n d) = false /\ 1 <= key (fdiv n d).
Proof.
  intros n d Fn Fd H. destruct (fdiv_key n d Fn Fd) as [A B]; [lra|]. split; auto. rewrite B, <- crnd_1. apply crnd_mono.
  apply Rmult_le_reg_r with (B2R d); [lra|]. unfold Rdiv. rewrite Rmult_assoc, Rinv_l by lra. lra.
Qed.
Lemma frint_ge1 : forall x, isnan x = false -> 1 <= key x -> isnan (frint x) = false /\ 1 <= key (frint x).
Proof.
  intros x N H. assert (b := big_4). destruct (isfin_cases x N) as [F|[->| ->]].
  - destruct (frint_fin x F) as [A B]. split; [now apply nan_fin|]. rewrite key_fin, B by auto. rewrite key_fin in H by auto. apply (IZR_le 1). now apply nearest_ge1.
  - change (frint finf) with finf. split; [reflexivity|]. change (key finf) with big. lra.
  - exfalso. change (key fninf) with (- big) in H. lra.
Qed.
(** feqb with zero *)
Lemma feqb_zero : forall x, isfin x = true -> (feqb x fzero = true <-> B2R x = 0).
Proof.
  intros x F. split; intros H.
  - apply feqb_spec in H as (_ & _ & H). rewrite key_fin in H by auto. exact H.
  - apply feqb_spec. split; [now apply nan_fin|]. split; auto. rewrite key_fin by auto. exact H.
Qed.
Lemma minDiff_val : isfin minDiff = true /\ 0 < B2R minDiff < / 4.
Proof.
  destruct (flit_val 5764607523034235 (-58)) as [A B]; [reflexivity|lia|]. split; [exact A|]. unfold minDiff. rewrite B.
  assert (E : bpow radix2 (-58) = / IZR (2^58)) by reflexivity. rewrite E. split.
  - apply Rmult_lt_0_compat; [apply (IZR_lt 0); lia|]. apply Rinv_0_lt_compat. apply (IZR_lt 0). lia.
  - apply Rmult_lt_reg_r with (IZR (2^58)); [apply (IZR_lt 0); lia|]. rewrite Rmult_assoc, Rinv_l by (apply (not_eq_sym (Rlt_not_eq _ _ (IZR_lt 0 (2^58) ltac:(lia))))).
    rewrite Rmult_1_r. apply Rmult_lt_reg_l with 4; [lra|]. rewrite <- Rmult_assoc. rewrite Rinv_r by lra. rewrite Rmult_1_l. rewrite <- mult_IZR. apply IZR_lt. reflexivity.
Qed.
(** isEquivSSE of a challenger d not worse than n: the rounded quotient is above
    1 - minDiff *)
Lemma equiv_iff : forall n d, isfin (ind_SSE n) = true -> isfin (ind_SSE d) = true -> 0 < B2R (ind_SSE n) -> 0 <= B2R (ind_SSE d) <= B2R (ind_SSE n) ->
  (is_equiv (Some d) (Some n) = true <-> 1 - B2R minDiff < rnd (B2R (ind_SSE d) / B2R (ind_SSE n))).
Proof.
  intros n d Fn Fd Pn Hd. unfold is_equiv. destruct (feqb (ind_SSE n) fzero) eqn:E; [apply feqb_zero in E; auto; lra|].
  destruct (fdiv_key _ _ Fd Fn) as [Nq Kq]; [lra|]. set (q := fdiv (ind_SSE d) (ind_SSE n)) in *. set (r := B2R (ind_SSE d) / B2R (ind_SSE n)) in *.
  assert (R01 : 0 <= r <= 1).
  { unfold r, Rdiv. split; [apply Rmult_le_pos; [lra|]; left; apply Rinv_0_lt_compat; lra|]. apply Rmult_le_reg_r with (B2R (ind_SSE n)); [lra|]. rewrite Rmult_assoc, Rinv_l by lra. lra. }
  assert (Q0 : 0 <= crnd r) by (apply crnd_ge0; lra). assert (Q1 : crnd r <= 1) by (rewrite <- crnd_1; apply crnd_mono; lra). assert (b := big_4).
  assert (Cr : crnd r = rnd r) by (apply crnd_rnd; lra). destruct (val_of_key q (crnd r) Nq Kq) as [Fq Vq]; [lra|]. rewrite Cr in *.
  destruct fone_val as [F1 V1]. destruct (fsub_key q fone Fq F1) as [Nm Km]. rewrite Vq, V1 in Km. destruct minDiff_val as [Fm Vm].
  set (m := fsub q fone) in *. assert (Kb : -1 <= crnd (rnd r - 1) <= 0).
  { split; [|apply crnd_le0; lra]. replace (-1) with (crnd (- (1))); [apply crnd_mono; lra|]. rewrite crnd_opp, crnd_1. lra. }
  destruct (val_of_key m _ Nm Km) as [Fmm Vmm]; [lra|].
  assert (A : isfin (fabs m) = true /\ B2R (fabs m) = - crnd (rnd r - 1)).
  { unfold fabs. split; [destruct m; auto|]. rewrite B2R_Babs, Vmm. rewrite Rabs_left1; lra. }
  destruct A as [Fa Va].
  assert (L : fltb (fabs m) minDiff = true <-> - crnd (rnd r - 1) < B2R minDiff).
  { rewrite fltb_spec. rewrite !key_fin by auto. rewrite Va. split; [tauto|]. intros; repeat split; auto; apply nan_fin; auto. }
  rewrite L. destruct (Rle_or_lt (/2) (rnd r)) as [H|H].
  - assert (X : crnd (rnd r - 1) = rnd r - 1).
    { apply crnd_fmt; [|lra]. rewrite <- Vq. rewrite <- V1 at 1. apply sterbenz; auto with typeclass_instances.
      - apply generic_format_B2R.
      - apply generic_format_B2R.
      - rewrite V1, Vq. lra. }
    rewrite X. lra.
  - assert (X : crnd (rnd r - 1) <= - / 2).
    { replace (- / 2) with (crnd (- / 2)); [apply crnd_mono; lra|]. rewrite crnd_opp. f_equal. apply (crnd_bpow (-1)). lia. }
    lra.
Qed.
