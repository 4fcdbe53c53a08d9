(** Proofs about IndivModel.v *)
From Coq Require Import List Bool ZArith Reals Lra Lia Permutation.
From Flocq Require Import Core BinarySingleNaN.
From Verif Require Import Flt Py IndivModel.
Import ListNotations.
Open Scope R_scope.

Lemma SSE_not_neg : forall i, fltb (ind_SSE i) fzero = false.
Proof.
  intros i. unfold ind_SSE. destruct (istored i) as [x|]; [|reflexivity].
  destruct (fltb x fzero) eqn:E; [reflexivity|exact E].
Qed.

Lemma float_SSE : forall i, ind_float i = ind_SSE i.
Proof. intros. unfold ind_float. now rewrite SSE_not_neg. Qed.

Lemma bool_false_iff : forall i,
  ind_bool i = false <-> exists x, istored i = Some x /\ fltb x fzero = true.
Proof.
  intros i. unfold ind_bool. destruct (istored i) as [x|].
  - destruct (isnan x) eqn:N.
    + split; [discriminate|]. intros [y [[= <-] H]].
      apply fltb_nan in H. destruct H; congruence.
    + assert (Z : isnan fzero = false) by reflexivity.
      split.
      * intros H. exists x. split; auto. rewrite (fltb_negb x fzero N Z). now rewrite H.
      * intros [y [[= <-] H]]. rewrite (fltb_negb x fzero N Z) in H.
        destruct (fleb fzero x); auto; discriminate.
  - split; [discriminate|]. intros [x [H _]]. discriminate.
Qed.

Lemma SSE_reading : forall i,
  (istored i = None -> ind_SSE i = finf) /\
  (forall x, istored i = Some x -> fltb x fzero = true -> ind_SSE i = finf) /\
  (forall x, istored i = Some x -> fltb x fzero = false -> ind_SSE i = x).
Proof.
  intros i. unfold ind_SSE. repeat split.
  - now intros ->.
  - intros x -> ->. reflexivity.
  - intros x -> ->. reflexivity.
Qed.

Lemma lt_strict_order : forall a b c,
  ind_lt a a = false /\
  (ind_lt a b = true -> ind_lt b a = false) /\
  (ind_lt a b = true -> ind_lt b c = true -> ind_lt a c = true) /\
  ind_gt a b = ind_lt b a.
Proof.
  intros a b c. unfold ind_lt, ind_gt. repeat split.
  - apply fltb_irrefl.
  - apply fltb_asym.
  - intros; eapply fltb_trans; eauto.
Qed.

Lemma lt_total : forall a b, isnan (ind_SSE a) = false -> isnan (ind_SSE b) = false ->
  ind_lt a b = true \/ ind_lt b a = true \/ feqb (ind_SSE a) (ind_SSE b) = true.
Proof.
  intros a b Ha Hb. unfold ind_lt. rewrite !float_SSE.
  destruct (fleb_total _ _ Ha Hb) as [H|H]; [|tauto].
  destruct (fleb_total _ _ Hb Ha) as [H'|H']; [|tauto].
  right; right. apply fleb_spec in H, H'. apply feqb_spec. intuition lra.
Qed.

Lemma lt_nan : forall a b, isnan (ind_SSE a) = true -> ind_lt a b = false /\ ind_lt b a = false.
Proof.
  intros a b H. unfold ind_lt. rewrite !float_SSE.
  split; apply not_true_iff_false; intros E; apply fltb_nan in E; destruct E; congruence.
Qed.

Lemma lt_reals : forall a b, ind_lt a b = true <->
  isnan (ind_SSE a) = false /\ isnan (ind_SSE b) = false /\ key (ind_SSE a) < key (ind_SSE b).
Proof. intros. unfold ind_lt. rewrite !float_SSE. apply fltb_spec. Qed.

Lemma fatal_loses : forall a b, ind_bool a = false ->
  ind_lt a b = false /\ (isfin (ind_SSE b) = true -> ind_lt b a = true).
Proof.
  intros a b H. apply bool_false_iff in H. destruct H as [x [H1 H2]].
  destruct (SSE_reading a) as (_ & E & _). specialize (E x H1 H2).
  unfold ind_lt. rewrite !float_SSE, E. split.
  - apply not_true_iff_false. intros C. apply fltb_spec in C. destruct C as (_ & _ & C).
    generalize (key_bound (ind_SSE b)). simpl in C. lra.
  - intros F. apply fltb_spec. split; [now apply nan_fin|]. split; auto. simpl.
    rewrite key_fin by easy. apply fin_bound.
Qed.

(** copying *)
Lemma copy_spec : forall i, exists j,
  ind_copy (length (ivalues i)) i = Ok j /\ ivalues j = ivalues i /\
  ind_SSE j = ind_SSE i.
Proof.
  intros i. unfold ind_copy, ind_new. rewrite Nat.eqb_refl. simpl.
  eexists; split; [reflexivity|]. simpl. split; auto.
  unfold ind_SSE at 1. simpl. now rewrite SSE_not_neg.
Qed.
Lemma vals_eq_refl : forall v, Forall (fun x => isnan x = false) v -> vals_eq v v = true.
Proof.
  induction 1; simpl; auto. apply andb_true_iff; split; auto. apply feqb_spec; auto.
Qed.
Lemma copy_equal : forall i j,
  ind_copy (length (ivalues i)) i = Ok j ->
  isnan (ind_SSE i) = false -> Forall (fun x => isnan x = false) (ivalues i) ->
  ind_eq j i = true /\ (forall k, ind_lt j k = ind_lt i k /\ ind_lt k j = ind_lt k i).
Proof.
  intros i j H N F. destruct (copy_spec i) as (j' & E & V & S). rewrite E in H. injection H as <-.
  split.
  - unfold ind_eq. rewrite V, S. apply andb_true_iff; split; [apply feqb_spec; auto|now apply vals_eq_refl].
  - intros k. unfold ind_lt. now rewrite !float_SSE, S.
Qed.
Lemma copy_loses_fatal : forall i j, ind_copy (length (ivalues i)) i = Ok j -> ind_bool j = true.
Proof.
  intros i j H. unfold ind_copy, ind_new in H. rewrite Nat.eqb_refl in H. injection H as <-.
  destruct (ind_bool _) eqn:E; auto. apply bool_false_iff in E. destruct E as [x [E1 E2]].
  simpl in E1. injection E1 as <-. now rewrite SSE_not_neg in E2.
Qed.

Lemma pickle_roundtrip : forall i st, Permutation st (ind_getstate i) -> ind_setstate st = Some i.
Proof.
  intros [v s d] st H.
  assert (ND : NoDup st).
  { apply (Permutation_NoDup (Permutation_sym H)). simpl.
    repeat constructor; simpl; intuition discriminate. }
  assert (L := Permutation_length H). simpl in L.
  destruct st as [|x [|y [|z [|? ?]]]]; try discriminate L.
  assert (I : forall e, In e [x; y; z] -> In e (ind_getstate (mkIndiv v s d))) by (intros; eapply Permutation_in; eauto).
  simpl in I.
  assert (Ix := I x); assert (Iy := I y); assert (Iz := I z). clear I H L.
  inversion ND as [|? ? N1 ND1]; subst. inversion ND1 as [|? ? N2 ND2]; subst. simpl in N1, N2.
  destruct Ix as [<-|[<-|[<-|[]]]]; auto; destruct Iy as [<-|[<-|[<-|[]]]]; auto;
  destruct Iz as [<-|[<-|[<-|[]]]]; auto; try reflexivity; exfalso; tauto.
Qed.

Lemma update_spec : forall Nd i vs,
  (length vs = Nd -> ind_update Nd i vs = (mkIndiv vs (istored i) (idt i), None)) /\
  (length vs <> Nd -> ind_update Nd i vs = (i, Some ValueError)).
Proof.
  intros Nd i vs. unfold ind_update. split; intros H.
  - apply Nat.eqb_eq in H. now rewrite H.
  - apply Nat.eqb_neq in H. now rewrite H.
Qed.

(** hashing *)
Definition nonzero (x : f64) : Prop := feqb x fzero = false.
Lemma feqb_leibniz : forall x y, feqb x y = true -> nonzero x -> x = y.
Proof.
  intros x y H Z. apply feqb_spec in H. destruct H as (H1 & H2 & H3).
  apply key_inj; auto. intros E. unfold nonzero in Z.
  assert (feqb x fzero = true); [|congruence]. apply feqb_spec. auto.
Qed.
Lemma vals_eq_leibniz : forall a b, vals_eq a b = true -> Forall nonzero a -> a = b.
Proof.
  induction a; destruct b; simpl; intros H F; try easy.
  apply andb_true_iff in H. destruct H as [H1 H2]. inversion F; subst.
  f_equal; auto. now apply feqb_leibniz.
Qed.
Lemma eq_hash : forall a b, ind_eq a b = true ->
  nonzero (ind_SSE a) -> Forall nonzero (ivalues a) -> ind_hashkey a = ind_hashkey b.
Proof.
  intros a b H Z F. apply andb_true_iff in H. destruct H as [H1 H2].
  apply feqb_leibniz in H1; auto. apply vals_eq_leibniz in H2; auto.
  unfold ind_hashkey. now rewrite H1, H2.
Qed.

(** the single precision overflow threshold 2^128 - 2^103 *)
Definition thr32 : R := bpow radix2 128 - bpow radix2 103.
Lemma r32_overflow : forall r, thr32 <= r -> big32 <= r32 r.
Proof.
  intros r H. apply Rle_trans with (r32 thr32); [|now apply r32_mono].
  set (t := flit (2^25 - 1) 103).
  assert (Ft : isfin t = true) by reflexivity.
  assert (Et : B2R t = thr32).
  { assert (K := flit_key (2^25-1) 103). fold t in K. destruct K as [_ K].
    rewrite key_fin in K by easy. rewrite K.
    assert (V : (IZR (2^25-1) * bpow radix2 103)%R = B2R (B754_finite (prec:=53) (emax:=1024) false (33554431 * 2^28) 75 eq_refl)).
    { unfold B2R, F2R. cbn [cond_Zopp Fnum Fexp].
      replace (bpow radix2 103) with (bpow radix2 28 * bpow radix2 75)%R by (rewrite <- bpow_plus; reflexivity).
      rewrite <- Rmult_assoc. f_equal. rewrite <- (IZR_Zpower radix2) by lia. rewrite <- mult_IZR. f_equal. }
    rewrite V, crnd_B2R, <- V. unfold thr32.
    replace (bpow radix2 128) with (bpow radix2 25 * bpow radix2 103)%R by (rewrite <- bpow_plus; reflexivity).
    rewrite minus_IZR. rewrite <- (IZR_Zpower radix2 25) by lia. simpl (radix_val radix2). lra. }
  rewrite <- Et. destruct (to32_fin t Ft) as [A B].
  destruct (Rlt_or_le (Rabs (r32 (B2R t))) big32) as [L|L].
  - apply A in L. destruct L as [L _]. vm_compute in L. discriminate.
  - assert (0 <= r32 (B2R t)). { rewrite <- r32_0. apply r32_mono. rewrite Et. unfold thr32.
      generalize (bpow_lt radix2 103 128). lra || (intros Q; assert (Q' := Q ltac:(lia)); lra). }
    rewrite Rabs_pos_eq in L; auto.
Qed.
Lemma max32_format : generic_format radix2 (SpecFloat.fexp 24 128) (bpow radix2 128 - bpow radix2 104).
Proof.
  replace (bpow radix2 128 - bpow radix2 104) with (F2R (Float radix2 (2^24-1) 104)).
  - apply generic_format_F2R. intros _. unfold cexp.
    rewrite (mag_unique radix2 _ 128).
    + unfold SpecFloat.fexp, SpecFloat.emin. lia.
    + unfold F2R; cbn [Fnum Fexp]. 
      replace (bpow radix2 (128-1)) with (bpow radix2 23 * bpow radix2 104)%R by (rewrite <- bpow_plus; reflexivity).
      replace (bpow radix2 128) with (bpow radix2 24 * bpow radix2 104)%R by (rewrite <- bpow_plus; reflexivity).
      assert (0 < bpow radix2 104) by apply bpow_gt_0.
      rewrite Rabs_pos_eq by (apply Rmult_le_pos; [apply IZR_le; lia|lra]).
      rewrite <- (IZR_Zpower radix2 23), <- (IZR_Zpower radix2 24) by lia.
      split; [apply Rmult_le_compat_r; [lra|apply IZR_le; simpl; lia]|apply Rmult_lt_compat_r; [lra|apply IZR_lt; simpl; lia]].
  - unfold F2R; cbn [Fnum Fexp].
    replace (bpow radix2 128) with (bpow radix2 24 * bpow radix2 104)%R by (rewrite <- bpow_plus; reflexivity).
    rewrite minus_IZR. rewrite <- (IZR_Zpower radix2 24) by lia. simpl (radix_val radix2). lra.
Qed.
Lemma r32_no_overflow : forall r, r < thr32 -> r32 r < big32.
Proof.
  intros r H. apply Rnot_le_lt. intros C.
  set (g := bpow radix2 128 - bpow radix2 104).
  assert (P103 : bpow radix2 104 = 2 * bpow radix2 103).
  { change 104%Z with (1 + 103)%Z. rewrite bpow_plus. reflexivity. }
  assert (0 < bpow radix2 103) by apply bpow_gt_0.
  destruct (Rle_or_lt r g) as [L|L].
  - apply r32_mono in L. unfold r32 at 2 in L. rewrite round_generic in L; auto with typeclass_instances.
    + unfold big32 in C. unfold g in L. lra.
    + apply max32_format.
  - assert (V : Valid_exp (SpecFloat.fexp 24 128)) by (apply fexp_correct; reflexivity).
    destruct (round_N_pt radix2 (SpecFloat.fexp 24 128) (fun x => negb (Z.even x)) r) as [_ N].
    specialize (N g max32_format). fold (r32 r) in N. unfold thr32 in H. unfold big32 in C. unfold g in *.
    rewrite (Rabs_left1 (bpow radix2 128 - bpow radix2 104 - r)) in N by lra.
    rewrite Rabs_pos_eq in N by lra. lra.
Qed.
Lemma hash_raises_iff : forall i, isfin (ind_SSE i) = true ->
  (ind_hashkey i = Raise OverflowError <-> thr32 <= B2R (ind_SSE i)).
Proof.
  intros i F. unfold ind_hashkey. rewrite F. simpl.
  assert (P : 0 <= B2R (ind_SSE i)).
  { assert (N := SSE_not_neg i). apply fltb_false in N; auto using nan_fin. now rewrite (key_fin _ F) in N. }
  assert (P' : 0 <= r32 (B2R (ind_SSE i))) by (rewrite <- r32_0; now apply r32_mono).
  destruct (to32_fin _ F) as [A B]. rewrite Rabs_pos_eq in A, B by easy.
  destruct (Rle_or_lt thr32 (B2R (ind_SSE i))) as [H|H].
  - rewrite (B (r32_overflow _ H)). simpl. tauto.
  - destruct (A (r32_no_overflow _ H)) as [H1 _]. rewrite H1. simpl. split; [discriminate|lra].
Qed.

(** evaluation *)
Lemma evaluate_spec : forall func t p i,
  let '(p', i') := evaluate func t p i in
  ivalues i' = ivalues i /\ ep_running p' = ep_running p /\
  match func (eval_arg p i) with
  | EvSSE x => istored i' = x /\ ep_counter p' = S (ep_counter p) /\ idt i' = Some t
  | EvFailure => ind_bool i' = false /\ ind_SSE i' = finf /\ ep_counter p' = ep_counter p
  end.
Proof.
  intros func t p i. unfold evaluate. destruct (func (eval_arg p i)); simpl; auto 6.
Qed.
Lemma eval_aborting : forall func func' t p i, ep_running p = Some false ->
  (forall a, a = None -> func a = func' a) -> evaluate func t p i = evaluate func' t p i.
Proof.
  intros func func' t p i R E. unfold evaluate, eval_arg. rewrite R. now rewrite E.
Qed.
