(** * More facts about binary64 arithmetic (no code of /repo modelled here) *)
From Coq Require Import ZArith Reals Lia Lra Bool List Psatz.
From Flocq Require Import Core BinarySingleNaN Plus_error.
From Verif Require Import Flt.
Local Open Scope R_scope.

Notation fexp64 := (SpecFloat.fexp 53 1024).
Lemma fexp64_eq : fexp64 = FLT_exp (-1074) 53. Proof. reflexivity. Qed.
#[export] Instance fexp64_valid : Valid_exp fexp64.
Proof. apply fexp_correct; reflexivity. Qed.
#[export] Instance fexp64_mono : Monotone_exp fexp64.
Proof. apply (FLT_exp_monotone (-1074) 53). Qed.

(** literals with at most 53 significant bits are exact *)
Lemma flit_val : forall m e, (Z.abs m < 2^53)%Z -> (-1074 <= e <= 971)%Z ->
  isfin (flit m e) = true /\ B2R (flit m e) = IZR m * bpow radix2 e.
Proof.
  intros m e Hm He. destruct (flit_key m e) as [N K].
  assert (G : generic_format radix2 fexp64 (IZR m * bpow radix2 e)).
  { change (generic_format radix2 (FLT_exp (-1074) 53) (F2R (Float radix2 m e))).
    apply generic_format_FLT. exists (Float radix2 m e); auto. simpl; lia. }
  assert (B : Rabs (IZR m * bpow radix2 e) < big).
  { rewrite Rabs_mult, (Rabs_pos_eq (bpow radix2 e)) by apply bpow_ge_0.
    unfold big. replace (bpow radix2 1024) with (bpow radix2 53 * bpow radix2 971) by (rewrite <- bpow_plus; reflexivity).
    apply Rle_lt_trans with (Rabs (IZR m) * bpow radix2 971).
    - apply Rmult_le_compat_l; [apply Rabs_pos|]. apply bpow_le. lia.
    - apply Rmult_lt_compat_r; [apply bpow_gt_0|]. rewrite <- abs_IZR.
      rewrite <- (IZR_Zpower radix2 53) by lia. apply IZR_lt. exact Hm. }
  apply Rabs_lt_inv in B.
  assert (C : crnd (IZR m * bpow radix2 e) = IZR m * bpow radix2 e).
  { unfold crnd, rnd. rewrite round_generic by auto with typeclass_instances. apply clamp_id. lra. }
  rewrite C in K. assert (F : isfin (flit m e) = true) by (apply fin_key; auto; lra).
  split; auto. now rewrite key_fin in K.
Qed.
Lemma fofZ_val : forall m, (Z.abs m < 2^53)%Z -> isfin (fofZ m) = true /\ B2R (fofZ m) = IZR m.
Proof. intros m H. destruct (flit_val m 0 H) as [A B]; [lia|]. split; auto. unfold fofZ. rewrite B. simpl. ring. Qed.
Lemma key_fofZ : forall m, (Z.abs m < 2^53)%Z -> key (fofZ m) = IZR m.
Proof. intros m H. destruct (fofZ_val m H). now rewrite key_fin. Qed.
Lemma key_fone : key fone = 1. Proof. apply key_fofZ; reflexivity. Qed.
Lemma key_fzero : key fzero = 0. Proof. reflexivity. Qed.

(** powers of two are fixed by rounding *)
Lemma crnd_bpow : forall e, (-1074 <= e <= 1023)%Z -> crnd (bpow radix2 e) = bpow radix2 e.
Proof.
  intros e He. unfold crnd, rnd. rewrite round_generic; auto with typeclass_instances.
  - apply clamp_id. assert (bpow radix2 e <= big) by (apply bpow_le; lia).
    assert (0 < bpow radix2 e) by apply bpow_gt_0. generalize big_pos. lra.
  - apply generic_format_bpow. unfold SpecFloat.fexp, SpecFloat.emin. lia.
Qed.
Lemma crnd_1 : crnd 1 = 1. Proof. apply (crnd_bpow 0). lia. Qed.

(** rounding a finite-range real *)
Lemma crnd_rnd : forall r, - big < crnd r < big -> crnd r = rnd r.
Proof. intros r. unfold crnd, clamp, Rmax, Rmin. generalize big_pos. repeat destruct Rle_dec; lra. Qed.

(** square root *)
Lemma fsqrt_key : forall x, isfin x = true -> 0 <= B2R x -> x <> fnzero ->
  isfin (fsqrt x) = true /\ B2R (fsqrt x) = rnd (sqrt (B2R x)).
Proof.
  intros x F P Z. destruct (Bsqrt_correct 53 1024 _ _ mode_NE x) as (A & B & _). split; auto.
  unfold isfin, fsqrt. rewrite B. destruct x as [[|]| | |[|] m e H]; auto; try discriminate.
  exfalso. simpl in P. assert (F2R (Float radix2 (Zneg m) e) < 0) by (apply F2R_lt_0; reflexivity). lra.
Qed.

(** ** strictness of scaling *)
Lemma rnd_scale_down : forall x S, 0 < x -> generic_format radix2 fexp64 x -> 0 <= S <= 1 ->
  / 2 * ulp radix2 fexp64 x < (1 - S) * x -> rnd (S * x) < x.
Proof.
  intros x S P G HS U.
  assert (L : S * x <= x) by nra.
  assert (M : rnd (S * x) <= x).
  { unfold rnd. apply round_le_generic; auto with typeclass_instances. }
  destruct (Rle_lt_or_eq_dec _ _ M) as [H|H]; auto. exfalso.
  assert (E := error_le_half_ulp_round radix2 fexp64 (fun x => negb (Z.even x)) (S * x)).
  change (round radix2 fexp64 (Znearest (fun x => negb (Z.even x))) (S * x)) with (rnd (S * x)) in E. rewrite H in E.
  rewrite Rabs_pos_eq in E by lra. lra.
Qed.
Lemma rnd_scale_up : forall x c, 0 < x -> generic_format radix2 fexp64 x -> 1 <= c ->
  / 2 * ulp radix2 fexp64 x < (c - 1) * x -> x < rnd (c * x).
Proof.
  intros x c P G HS U.
  assert (L : x <= c * x) by nra.
  assert (M : x <= rnd (c * x)).
  { unfold rnd. apply round_ge_generic; auto with typeclass_instances. }
  destruct (Rle_lt_or_eq_dec _ _ M) as [H|H]; auto. exfalso.
  assert (E := error_le_half_ulp_round radix2 fexp64 (fun x => negb (Z.even x)) (c * x)).
  change (round radix2 fexp64 (Znearest (fun x => negb (Z.even x))) (c * x)) with (rnd (c * x)) in E. rewrite <- H in E.
  rewrite Rabs_left1 in E by lra. lra.
Qed.
(** every positive float is at least four units in the last place away from 0,
    from 2^-1072 on *)
Lemma ulp_quarter : forall x, bpow radix2 (-1072) <= x -> 4 * ulp radix2 fexp64 x <= x.
Proof.
  intros x H. assert (P : 0 < x) by (apply Rlt_le_trans with (2 := H); apply bpow_gt_0).
  rewrite ulp_neq_0 by lra. unfold cexp.
  assert (M := bpow_mag_le radix2 x (Rgt_not_eq _ _ P)). rewrite Rabs_pos_eq in M by lra.
  assert (Mg : (-1071 <= mag radix2 x)%Z).
  { apply mag_ge_bpow. simpl. rewrite Rabs_pos_eq by lra. exact H. }
  replace 4 with (bpow radix2 2) by (simpl; lra). rewrite <- bpow_plus.
  apply Rle_trans with (2 := M). apply bpow_le. unfold SpecFloat.fexp, SpecFloat.emin. lia.
Qed.

(** integer multiples of 2^-1074 *)
Lemma format_units : forall x, generic_format radix2 fexp64 x -> exists z, x = IZR z * bpow radix2 (-1074).
Proof.
  intros x G. change (generic_format radix2 (FLT_exp (-1074) 53) x) in G.
  apply FLT_format_generic in G; [|reflexivity]. destruct G as [[m e] H1 H2 H3]. cbn [Fnum Fexp] in *.
  exists (m * 2^(e + 1074))%Z. rewrite H1. unfold F2R. cbn [Fnum Fexp].
  rewrite mult_IZR. change 2%Z with (radix_val radix2). rewrite (IZR_Zpower radix2) by lia.
  rewrite Rmult_assoc, <- bpow_plus. do 2 f_equal. lia.
Qed.

(** ** random.uniform(a, b) = a + (b-a)*random.random() *)
Definition funiform (a b u : f64) : f64 := fadd a (fmul (fsub b a) u).
(** what random.random() can return *)
Definition unit_draw (u : f64) : Prop := fleb fzero u = true /\ fltb u fone = true.

Lemma unit_draw_real : forall u, unit_draw u -> isfin u = true /\ 0 <= B2R u <= 1 - bpow radix2 (-53).
Proof.
  intros u [A B]. apply fleb_spec in A. apply fltb_spec in B.
  destruct A as (_ & N & A). destruct B as (_ & _ & B). rewrite key_fone in B. rewrite key_fzero in A.
  assert (1 < big) by (change 1 with (bpow radix2 0); apply bpow_lt; lia).
  assert (F : isfin u = true) by (apply fin_key; auto; lra).
  rewrite key_fin in A, B by easy. split; auto. split; auto.
  replace (1 - bpow radix2 (-53)) with (pred radix2 fexp64 1).
  - apply pred_ge_gt; auto with typeclass_instances.
    + apply generic_format_B2R.
    + change 1 with (bpow radix2 0). apply generic_format_bpow. unfold SpecFloat.fexp, SpecFloat.emin. lia.
  - change 1 with (bpow radix2 0) at 1. rewrite pred_bpow. reflexivity.
Qed.

(** multiplying a normal float by a draw gives a strictly smaller float *)
Lemma rnd_draw_lt : forall d u, generic_format radix2 fexp64 d -> bpow radix2 (-1021) <= d -> 0 <= u <= 1 - bpow radix2 (-53) ->
  rnd (d * u) < d.
Proof.
  intros d u G D U.
  assert (P : 0 < d) by (apply Rlt_le_trans with (2 := D); apply bpow_gt_0).
  destruct (mag radix2 d) as [e He]. assert (He' := He (Rgt_not_eq _ _ P)). rewrite Rabs_pos_eq in He' by lra.
  assert (Ee : (-1020 <= e)%Z).
  { assert (bpow radix2 (-1021) < bpow radix2 e) by lra. apply lt_bpow in H. lia. }
  destruct (Rle_lt_or_eq_dec _ _ (proj1 He')) as [H|H].
  - (* not a power of two *)
    rewrite Rmult_comm. apply rnd_scale_down; auto; [generalize (bpow_gt_0 radix2 (-53)); lra|].
    rewrite ulp_neq_0 by lra. unfold cexp. rewrite (mag_unique_pos radix2 d e He').
    replace (fexp64 e) with (e - 53)%Z by (unfold SpecFloat.fexp, SpecFloat.emin; lia).
    assert (E1 : / 2 * bpow radix2 (e - 53) = bpow radix2 (-53) * bpow radix2 (e - 1)).
    { rewrite <- bpow_plus. change (/ 2) with (bpow radix2 (-1)). rewrite <- bpow_plus. f_equal. lia. }
    rewrite E1. assert (0 < bpow radix2 (-53)) by apply bpow_gt_0. nra.
  - (* a power of two: the product is at most its predecessor *)
    assert (Gp : generic_format radix2 fexp64 (pred radix2 fexp64 d)) by (apply generic_format_pred; auto with typeclass_instances).
    assert (L : pred radix2 fexp64 d < d) by (apply pred_lt_id; lra).
    apply Rle_lt_trans with (2 := L). unfold rnd.
    apply round_le_generic; auto with typeclass_instances.
    rewrite <- H, pred_bpow.
    replace (fexp64 (e - 1)) with ((-53) + (e - 1))%Z by (unfold SpecFloat.fexp, SpecFloat.emin; lia).
    rewrite bpow_plus. assert (0 < bpow radix2 (e - 1)) by apply bpow_gt_0. nra.
Qed.

Lemma funiform_range : forall a b u, isfin a = true -> isfin b = true -> isfin (fsub b a) = true ->
  B2R a <= B2R b -> unit_draw u ->
  isfin (funiform a b u) = true /\ B2R a <= B2R (funiform a b u) <= B2R b.
Proof.
  intros a b u Fa Fb Fd L Hu. destruct (unit_draw_real u Hu) as [Fu [U0 U1]].
  destruct (fsub_key b a Fb Fa) as [_ Kd]. rewrite key_fin in Kd by easy.
  assert (Rd : B2R (fsub b a) = rnd (B2R b - B2R a)).
  { rewrite Kd. apply crnd_rnd. rewrite <- Kd. apply fin_bound. }
  set (d := B2R (fsub b a)) in *.
  assert (D0 : 0 <= d) by (rewrite Rd; apply rnd_ge0; lra).
  assert (B53 : 0 < bpow radix2 (-53)) by apply bpow_gt_0.
  assert (Gd : generic_format radix2 fexp64 d) by apply generic_format_B2R.
  assert (Key : rnd (d * B2R u) <= B2R b - B2R a).
  { destruct (Rle_or_lt d (B2R b - B2R a)) as [H|H].
    - apply Rle_trans with d; auto. unfold rnd. apply round_le_generic; auto with typeclass_instances. nra.
    - assert (NE : ~ generic_format radix2 fexp64 (B2R b - B2R a)).
      { intros G. rewrite Rd in H. unfold rnd in H. rewrite round_generic in H by auto with typeclass_instances. lra. }
      assert (Big : bpow radix2 (-1021) < B2R b - B2R a).
      { apply Rnot_le_lt. intros C. apply NE.
        apply (FLT_format_plus_small radix2 (-1074) 53); try apply generic_format_B2R.
        - apply generic_format_opp, generic_format_B2R.
        - change (53 + -1074)%Z with (-1021)%Z. fold (B2R b - B2R a). rewrite Rabs_pos_eq; lra. }
      assert (Lt := rnd_draw_lt d (B2R u) Gd (Rlt_le _ _ (Rlt_trans _ _ _ Big H)) (conj U0 U1)).
      apply Rle_trans with (pred radix2 fexp64 d).
      + apply pred_ge_gt; auto with typeclass_instances. apply generic_format_round; auto with typeclass_instances.
      + apply Rnot_lt_le. intros C. apply Rlt_le in C.
        assert (rnd (B2R b - B2R a) <= pred radix2 fexp64 d).
        { unfold rnd. apply round_le_generic; auto with typeclass_instances. apply generic_format_pred; auto with typeclass_instances. }
        assert (pred radix2 fexp64 d < d). { apply pred_lt_id. generalize (bpow_gt_0 radix2 (-1021)). lra. }
        lra. }
  destruct (fmul_key (fsub b a) u Fd Fu) as [Nm Km]. fold d in Km.
  assert (M0 : 0 <= rnd (d * B2R u)) by (apply rnd_ge0; nra).
  assert (Mb : crnd (d * B2R u) = rnd (d * B2R u)).
  { unfold crnd. apply clamp_id. split; [generalize big_pos; lra|].
    apply Rle_trans with d; [|left; apply (fin_bound (fsub b a))].
    unfold rnd. apply round_le_generic; auto with typeclass_instances. nra. }
  rewrite Mb in Km.
  assert (Fm : isfin (fmul (fsub b a) u) = true).
  { apply fin_key; auto. rewrite Km. split; [generalize big_pos; lra|].
    apply Rle_lt_trans with d; [|apply (fin_bound (fsub b a))].
    unfold rnd. apply round_le_generic; auto with typeclass_instances. nra. }
  rewrite key_fin in Km by easy.
  destruct (fadd_key a _ Fa Fm) as [Na Ka]. rewrite Km in Ka. fold (funiform a b u) in *.
  assert (A1 : B2R a <= key (funiform a b u)).
  { rewrite Ka. apply Rle_trans with (crnd (B2R a)); [rewrite crnd_B2R; apply Rle_refl|]. apply crnd_mono. lra. }
  assert (A2 : key (funiform a b u) <= B2R b).
  { rewrite Ka. apply Rle_trans with (crnd (B2R b)); [|rewrite crnd_B2R; apply Rle_refl]. apply crnd_mono. lra. }
  assert (F : isfin (funiform a b u) = true).
  { apply fin_key; auto. generalize (fin_bound a) (fin_bound b). lra. }
  rewrite key_fin in A1, A2 by easy. auto.
Qed.
