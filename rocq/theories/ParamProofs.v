(** Proofs about ParamModel.v *)
From Coq Require Import String Ascii List Bool Arith ZArith Reals Lra Lia Permutation Sorted.
From Flocq Require Import Core BinarySingleNaN Mult_error Plus_error.
From Verif Require Import Flt Py IndivModel IndivProofs ParamModel.
Import ListNotations.
Open Scope R_scope.

(** ** limit *)

(** a usable bound: finite and below 2^1023 in magnitude *)
Definition okbound (b : f64) : Prop := isfin b = true /\ Rabs (B2R b) < bpow radix2 1023.

Lemma big_half : big = 2 * bpow radix2 1023.
Proof. unfold big. change 1024%Z with (1 + 1023)%Z. rewrite bpow_plus. reflexivity. Qed.

Lemma two_key : isfin ftwo = true /\ B2R ftwo = 2.
Proof.
  split; [reflexivity|]. unfold ftwo, fofZ.
  destruct (flit_key 2 0) as [_ K]. rewrite key_fin in K by reflexivity. rewrite K.
  change (bpow radix2 0) with 1. rewrite Rmult_1_r.
  replace 2 with (B2R (B754_finite (prec:=53) (emax:=1024) false 4503599627370496 (-51) eq_refl)).
  - apply crnd_B2R.
  - unfold B2R, F2R. cbn [cond_Zopp Fnum Fexp].
    replace (IZR (Z.pos 4503599627370496)) with (bpow radix2 52) by reflexivity.
    rewrite <- bpow_plus. reflexivity.
Qed.

Lemma double_exact : forall b, okbound b -> isfin (fmul ftwo b) = true /\ B2R (fmul ftwo b) = 2 * B2R b.
Proof.
  intros b [F H]. destruct two_key as [F2 E2].
  destruct (fmul_key ftwo b F2 F) as [N K]. rewrite E2 in K.
  assert (G : rnd (2 * B2R b) = 2 * B2R b).
  { unfold rnd. apply round_generic; auto with typeclass_instances.
    replace (2 * B2R b) with (B2R b * bpow radix2 1) by (change (bpow radix2 1) with 2; ring).
    apply (mult_bpow_pos_exact_FLT radix2 (SpecFloat.emin 53 1024) 53); [|lia].
    apply generic_format_B2R. }
  assert (R2 : - big < 2 * B2R b < big).
  { rewrite big_half. apply Rabs_lt_inv in H. lra. }
  assert (C : crnd (2 * B2R b) = 2 * B2R b).
  { unfold crnd. rewrite G. apply clamp_id. lra. }
  rewrite C in K. assert (Fr : isfin (fmul ftwo b) = true) by (apply fin_key; auto; lra).
  split; auto. now rewrite key_fin in K.
Qed.

(** x - v for a finite x and any v that is not NaN *)
Lemma fsub_any : forall x v, isfin x = true -> isnan v = false ->
  isnan (fsub x v) = false /\
  (isfin v = true -> key (fsub x v) = crnd (B2R x - B2R v)) /\
  (v = finf -> fsub x v = fninf) /\ (v = fninf -> fsub x v = finf).
Proof.
  intros x v F N. destruct (isfin_cases v N) as [Fv|[->| ->]].
  - destruct (fsub_key x v F Fv) as [A B]. repeat split; auto; intros ->; discriminate.
  - destruct x; try discriminate; repeat split; auto; intros; discriminate.
  - destruct x; try discriminate; repeat split; auto; intros; discriminate.
Qed.

Lemma npclip_in : forall v lo hi, isnan v = false -> fleb lo hi = true ->
  fleb lo (npclip v lo hi) = true /\ fleb (npclip v lo hi) hi = true.
Proof.
  intros v lo hi N L. apply fleb_spec in L. destruct L as (N1 & N2 & L).
  unfold npclip, npmin, npmax. rewrite N.
  destruct (fltb lo v) eqn:E1.
  - rewrite N. apply fltb_spec in E1. destruct (fltb v hi) eqn:E2.
    + apply fltb_spec in E2. split; apply fleb_spec; intuition lra.
    + split; apply fleb_spec; intuition lra.
  - rewrite N1. destruct (fltb lo hi) eqn:E2; split; apply fleb_spec; intuition lra.
Qed.

(** what clipping does to a value between the bounds *)
Lemma npclip_id : forall v lo hi, fleb lo v = true -> fleb v hi = true ->
  feqb (npclip v lo hi) v = true.
Proof.
  intros v lo hi A B. apply fleb_spec in A, B. destruct A as (N1 & N & A). destruct B as (_ & N2 & B).
  unfold npclip, npmin, npmax. rewrite N.
  destruct (fltb lo v) eqn:E1.
  - rewrite N. destruct (fltb v hi) eqn:E2; [apply feqb_spec; auto|].
    apply fltb_false in E2; auto. apply feqb_spec. intuition lra.
  - rewrite N1. apply fltb_false in E1; auto. destruct (fltb lo hi) eqn:E2.
    + apply feqb_spec; intuition lra.
    + apply fltb_false in E2; auto. apply feqb_spec. intuition lra.
Qed.

Section Limit.
Variables lo hi v : f64.
Hypothesis Hlo : okbound lo.
Hypothesis Hhi : okbound hi.
Hypothesis Hle : fleb lo hi = true.
Hypothesis Hv : isnan v = false.

Let v1 := if fltb v lo then fsub (fmul ftwo lo) v else v.
Let v2 := if fltb hi v1 then fsub (fmul ftwo hi) v1 else v1.

Lemma v1_nan : isnan v1 = false.
Proof.
  unfold v1. destruct (fltb v lo); auto.
  destruct (double_exact lo Hlo) as [F _]. now apply fsub_any.
Qed.
Lemma v2_nan : isnan v2 = false.
Proof.
  unfold v2. destruct (fltb hi v1); [|apply v1_nan].
  destruct (double_exact hi Hhi) as [F _]. apply fsub_any; auto using v1_nan.
Qed.
Lemma limit1_in : fleb lo (limit1 lo hi v) = true /\ fleb (limit1 lo hi v) hi = true.
Proof. unfold limit1. apply npclip_in; [exact v2_nan|auto]. Qed.

Lemma limit1_inside : fleb lo v = true -> fleb v hi = true -> feqb (limit1 lo hi v) v = true.
Proof.
  intros A B. unfold limit1.
  assert (E1 : fltb v lo = false).
  { apply not_true_iff_false. intros C. apply fltb_spec in C. apply fleb_spec in A. lra. }
  rewrite E1.
  assert (E2 : fltb hi v = false).
  { apply not_true_iff_false. intros C. apply fltb_spec in C. apply fleb_spec in B. lra. }
  rewrite E2. now apply npclip_id.
Qed.

Lemma limit1_mirror_low : isfin v = true -> fltb v lo = true -> 2 * B2R lo - B2R v <= B2R hi ->
  isfin (limit1 lo hi v) = true /\ B2R (limit1 lo hi v) = rnd (2 * B2R lo - B2R v).
Proof.
  intros F E M. destruct (double_exact lo Hlo) as [F2 E2].
  destruct (fsub_key _ _ F2 F) as [N K]. rewrite E2 in K.
  destruct Hlo as [Fl _]. destruct Hhi as [Fh _].
  assert (Elt := E). apply fltb_spec in Elt. destruct Elt as (_ & _ & Elt). rewrite !key_fin in Elt by easy.
  assert (Low : B2R lo <= crnd (2 * B2R lo - B2R v)) by (rewrite <- (crnd_B2R lo) at 1; apply crnd_mono; lra).
  assert (Up : crnd (2 * B2R lo - B2R v) <= B2R hi) by (rewrite <- (crnd_B2R hi); apply crnd_mono; lra).
  set (m := fsub (fmul ftwo lo) v) in *.
  assert (Q : feqb (limit1 lo hi v) m = true).
  { unfold limit1. rewrite E. fold m.
    assert (E3 : fltb hi m = false).
    { apply not_true_iff_false. intros C. apply fltb_spec in C. rewrite K, (key_fin hi) in C by easy. lra. }
    rewrite E3. apply npclip_id; apply fleb_spec; rewrite K, key_fin by easy; auto using nan_fin. }
  apply feqb_spec in Q. destruct Q as (N1 & _ & Q).
  assert (Bd := fin_bound lo). assert (Bd' := fin_bound hi).
  assert (Fr : isfin (limit1 lo hi v) = true) by (apply fin_key; auto; rewrite Q, K; lra).
  split; auto. rewrite <- (key_fin _ Fr), Q, K. unfold crnd. apply clamp_id.
  revert Low Up. unfold crnd, clamp, Rmax, Rmin. generalize big_pos. repeat destruct Rle_dec; lra.
Qed.

Lemma limit1_mirror_high : isfin v = true -> fltb hi v = true -> B2R lo <= 2 * B2R hi - B2R v ->
  isfin (limit1 lo hi v) = true /\ B2R (limit1 lo hi v) = rnd (2 * B2R hi - B2R v).
Proof.
  intros F E M. destruct (double_exact hi Hhi) as [F2 E2].
  destruct (fsub_key _ _ F2 F) as [N K]. rewrite E2 in K.
  destruct Hlo as [Fl _]. destruct Hhi as [Fh _].
  assert (Elt := E). apply fltb_spec in Elt. destruct Elt as (_ & _ & Elt). rewrite !key_fin in Elt by easy.
  assert (L := Hle). apply fleb_spec in L. destruct L as (_ & _ & L). rewrite !key_fin in L by easy.
  assert (Low : B2R lo <= crnd (2 * B2R hi - B2R v)) by (rewrite <- (crnd_B2R lo); apply crnd_mono; lra).
  assert (Up : crnd (2 * B2R hi - B2R v) <= B2R hi) by (rewrite <- (crnd_B2R hi) at 2; apply crnd_mono; lra).
  set (m := fsub (fmul ftwo hi) v) in *.
  assert (Q : feqb (limit1 lo hi v) m = true).
  { unfold limit1.
    assert (E3 : fltb v lo = false).
    { apply not_true_iff_false. intros C. apply fltb_spec in C. rewrite !key_fin in C by easy. lra. }
    rewrite E3, E. fold m. apply npclip_id; apply fleb_spec; rewrite K, key_fin by easy; auto using nan_fin. }
  apply feqb_spec in Q. destruct Q as (N1 & _ & Q).
  assert (Bd := fin_bound lo). assert (Bd' := fin_bound hi).
  assert (Fr : isfin (limit1 lo hi v) = true) by (apply fin_key; auto; rewrite Q, K; lra).
  split; auto. rewrite <- (key_fin _ Fr), Q, K. unfold crnd. apply clamp_id.
  revert Low Up. unfold crnd, clamp, Rmax, Rmin. generalize big_pos. repeat destruct Rle_dec; lra.
Qed.
End Limit.

Lemma limit1_idem : forall lo hi v, okbound lo -> okbound hi -> fleb lo hi = true -> isnan v = false ->
  limit1 lo hi (limit1 lo hi v) = limit1 lo hi v.
Proof.
  intros lo hi v Hlo Hhi Hle Hv.
  destruct (limit1_in lo hi v Hlo Hhi Hle Hv) as [A B].
  assert (NL : isnan lo = false) by apply nan_fin, Hlo. assert (NH : isnan hi = false) by apply nan_fin, Hhi.
  set (w := limit1 lo hi v) in *.
  assert (C : w = lo \/ w = hi \/ (fltb lo w = true /\ fltb w hi = true)).
  { unfold w, limit1. set (x := if fltb hi _ then _ else _).
    assert (Nx : isnan x = false) by (apply v2_nan; auto).
    unfold npclip, npmin, npmax. rewrite Nx. destruct (fltb lo x) eqn:E1.
    - rewrite Nx. destruct (fltb x hi) eqn:E2; auto.
    - rewrite NL. destruct (fltb lo hi); auto. }
  apply fleb_spec in A, B. destruct A as (_ & Nw & A). destruct B as (_ & _ & B).
  assert (E1 : fltb w lo = false) by (apply not_true_iff_false; intros E; apply fltb_spec in E; lra).
  assert (E2 : fltb hi w = false) by (apply not_true_iff_false; intros E; apply fltb_spec in E; lra).
  unfold limit1. rewrite E1, E2. unfold npclip, npmin, npmax. rewrite Nw.
  destruct (fltb lo w) eqn:E3.
  - rewrite Nw. destruct (fltb w hi) eqn:E4; auto.
    destruct C as [C|[C|[C1 C2]]]; auto; try congruence.
  - rewrite NL. destruct (fltb lo hi) eqn:E4.
    + destruct C as [C|[C|[C1 C2]]]; auto; congruence.
    + destruct C as [C|[C|[C1 C2]]]; auto; try congruence.
      (* w = lo, lo and hi numerically equal *)
      assert (C0 := C). unfold w, limit1 in C. set (x := if fltb hi _ then _ else _) in C.
      assert (Nx : isnan x = false) by (apply v2_nan; auto).
      unfold npclip, npmin, npmax in C. rewrite Nx in C.
      apply fltb_false in E4; auto.
      destruct (fltb lo x) eqn:E5 in C.
      * rewrite Nx in C. destruct (fltb x hi) eqn:E6 in C; [|congruence].
        apply fltb_spec in E5, E6. lra.
      * rewrite NL in C. destruct (fltb lo hi) eqn:E6 in C; [|congruence].
        apply fltb_spec in E6. lra.
Qed.

(** ** challenger *)
Lemma fmul_fin_nan : forall x y, isfin x = true -> isfin y = true -> isnan (fmul x y) = false.
Proof. intros. now apply fmul_key. Qed.

Lemma fadd_fin_any : forall x y, isfin x = true -> isnan y = false -> isnan (fadd x y) = false.
Proof.
  intros x y F N. destruct (isfin_cases y N) as [Fy|[->| ->]].
  - now apply fadd_key.
  - now destruct x.
  - now destruct x.
Qed.

(** a value between usable bounds *)
Definition inb (lo hi v : f64) : Prop := fleb lo v = true /\ fleb v hi = true.
Lemma inb_fin : forall lo hi v, okbound lo -> okbound hi -> inb lo hi v ->
  isfin v = true /\ Rabs (B2R v) < bpow radix2 1023.
Proof.
  intros lo hi v [Fl Bl] [Fh Bh] [A B]. apply fleb_spec in A, B.
  destruct A as (_ & N & A). destruct B as (_ & _ & B). rewrite (key_fin lo) in A by easy. rewrite (key_fin hi) in B by easy.
  assert (P := bpow_gt_0 radix2 1023). assert (bh := big_half).
  apply Rabs_lt_inv in Bl, Bh.
  assert (F : isfin v = true) by (apply fin_key; auto; lra).
  rewrite key_fin in A, B by easy. split; auto. apply Rabs_lt. lra.
Qed.
Lemma diff_fin : forall a b, isfin a = true -> isfin b = true ->
  Rabs (B2R a) < bpow radix2 1023 -> Rabs (B2R b) < bpow radix2 1023 -> isfin (fsub a b) = true.
Proof.
  intros a b Fa Fb Ha Hb. destruct (fsub_key a b Fa Fb) as [N K]. apply fin_key; auto. rewrite K.
  (* below 2^1023 means at most pred *)
  set (g := bpow radix2 1024 - bpow radix2 971).
  assert (G1023 : forall x : f64, Rabs (B2R x) < bpow radix2 1023 -> Rabs (B2R x) <= bpow radix2 1023 - bpow radix2 970).
  { intros x Hx. replace (bpow radix2 1023 - bpow radix2 970) with (pred radix2 (SpecFloat.fexp 53 1024) (bpow radix2 1023)).
    - apply pred_ge_gt; auto.
      + apply fexp_correct; reflexivity.
      + apply generic_format_abs, generic_format_B2R.
      + apply generic_format_bpow. unfold SpecFloat.fexp, SpecFloat.emin. lia.
    - rewrite pred_bpow by (apply fexp_correct; reflexivity). reflexivity. }
  assert (P970 : bpow radix2 971 = 2 * bpow radix2 970) by (change 971%Z with (1 + 970)%Z; rewrite bpow_plus; reflexivity).
  assert (P1023 := big_half). unfold big in P1023.
  assert (Ga := G1023 _ Ha). assert (Gb := G1023 _ Hb).
  apply Rabs_le_inv in Ga, Gb.
  assert (Fg : rnd g = g).
  { unfold rnd. apply round_generic; auto with typeclass_instances.
    unfold g. replace (bpow radix2 1024 - bpow radix2 971) with (F2R (Float radix2 (2^53-1) 971)).
    - apply generic_format_F2R. intros _. unfold cexp. rewrite (mag_unique radix2 _ 1024).
      + unfold SpecFloat.fexp, SpecFloat.emin. lia.
      + unfold F2R; cbn [Fnum Fexp].
        replace (bpow radix2 (1024-1)) with (bpow radix2 52 * bpow radix2 971)%R by (rewrite <- bpow_plus; reflexivity).
        replace (bpow radix2 1024) with (bpow radix2 53 * bpow radix2 971)%R by (rewrite <- bpow_plus; reflexivity).
        assert (0 < bpow radix2 971) by apply bpow_gt_0.
        rewrite Rabs_pos_eq by (apply Rmult_le_pos; [apply IZR_le; lia|lra]).
        rewrite <- (IZR_Zpower radix2 52), <- (IZR_Zpower radix2 53) by lia.
        split; [apply Rmult_le_compat_r; [lra|apply IZR_le; simpl; lia]|apply Rmult_lt_compat_r; [lra|apply IZR_lt; simpl; lia]].
    - unfold F2R; cbn [Fnum Fexp].
      replace (bpow radix2 1024) with (bpow radix2 53 * bpow radix2 971)%R by (rewrite <- bpow_plus; reflexivity).
      rewrite minus_IZR. rewrite <- (IZR_Zpower radix2 53) by lia. simpl (radix_val radix2). lra. }
  assert (P := bpow_gt_0 radix2 970).
  assert (U : rnd (B2R a - B2R b) <= g) by (rewrite <- Fg; apply rnd_mono; unfold g; lra).
  assert (L : - g <= rnd (B2R a - B2R b)) by (rewrite <- Fg, <- rnd_opp; apply rnd_mono; unfold g; lra).
  unfold g in U, L. unfold crnd. rewrite clamp_id; unfold big; lra.
Qed.

Lemma mutant1_nan : forall lo hi b a0 a1 F, okbound lo -> okbound hi ->
  inb lo hi b -> inb lo hi a0 -> inb lo hi a1 -> isfin F = true ->
  isnan (fadd b (fmul (fsub a0 a1) F)) = false.
Proof.
  intros lo hi b a0 a1 F Hl Hh Hb H0 H1 HF.
  apply (inb_fin lo hi) in Hb; auto. apply (inb_fin lo hi) in H0; auto. apply (inb_fin lo hi) in H1; auto.
  apply fadd_fin_any; [tauto|]. apply fmul_fin_nan; auto. apply diff_fin; tauto.
Qed.

(** the vectors *)
Definition okpm (p : pm) : Prop :=
  length (pm_mins p) = length (pm_maxs p) /\
  forall k lo hi, nth_error (pm_mins p) k = Some lo -> nth_error (pm_maxs p) k = Some hi ->
    okbound lo /\ okbound hi /\ fleb lo hi = true.
(** values inside the bounds of a parameter manager *)
Definition inbounds (p : pm) (v : list f64) : Prop :=
  length v = length (pm_mins p) /\
  forall k x, nth_error v k = Some x -> exists lo hi,
    nth_error (pm_mins p) k = Some lo /\ nth_error (pm_maxs p) k = Some hi /\
    fleb lo x = true /\ fleb x hi = true.

Lemma pm_limit_in : forall p v, okpm p -> length v = length (pm_mins p) ->
  Forall (fun x => isnan x = false) v -> inbounds p (pm_limit p v).
Proof.
  intros p v [L H] Lv Nv. unfold pm_limit. split.
  - apply map3_length; auto.
  - intros k x E.
    assert (Hk : (k < length (pm_mins p))%nat).
    { rewrite <- (map3_length limit1 (pm_mins p) (pm_maxs p) v); auto. apply nth_error_Some. congruence. }
    destruct (nth_error (pm_mins p) k) as [lo|] eqn:E1; [|apply nth_error_None in E1; lia].
    destruct (nth_error (pm_maxs p) k) as [hi|] eqn:E2; [|apply nth_error_None in E2; lia].
    destruct (nth_error v k) as [y|] eqn:E3; [|apply nth_error_None in E3; lia].
    rewrite (map3_nth _ _ _ _ _ _ _ _ E1 E2 E3) in E. injection E as <-.
    destruct (H k lo hi E1 E2) as (A & B & C).
    exists lo, hi. repeat split; auto; apply limit1_in; auto;
    rewrite Forall_forall in Nv; apply Nv; eapply nth_error_In; eauto.
Qed.

Lemma crossover_from_length : forall CR j u p m k, length (crossover_from CR j u k p m) = length m.
Proof. induction p; destruct m; simpl; intros; auto. Qed.

Lemma crossover_from_nth : forall CR j u p m k n x y,
  nth_error p n = Some x -> nth_error m n = Some y ->
  nth_error (crossover_from CR j u k p m) n =
    Some (if Nat.eqb (k + n) j then y else if fltb CR (u (k + n)%nat) then x else y).
Proof.
  induction p; destruct m; intros k n x y H1 H2; destruct n; simpl in *; try discriminate.
  - injection H1 as ->. injection H2 as ->. now rewrite Nat.add_0_r.
  - rewrite (IHp m (S k) n x y H1 H2). now rewrite Nat.add_succ_r.
Qed.
Lemma crossover_nth : forall CR j u p m n x y,
  nth_error p n = Some x -> nth_error m n = Some y ->
  nth_error (crossover CR j u p m) n =
    Some (if Nat.eqb n j then y else if fltb CR (u n) then x else y).
Proof. intros. unfold crossover. now rewrite (crossover_from_nth _ _ _ _ _ _ _ _ _ H H0). Qed.

Lemma mutate_length : forall ib i0 i1 F, length i0 = length i1 -> length ib = length i0 ->
  length (mutate ib i0 i1 F) = length ib.
Proof. intros. unfold mutate. apply map2_length. now rewrite map_length, map2_length. Qed.
Lemma mutate_nth : forall ib i0 i1 F n b x y, nth_error ib n = Some b -> nth_error i0 n = Some x -> nth_error i1 n = Some y ->
  nth_error (mutate ib i0 i1 F) n = Some (fadd b (fmul (fsub x y) F)).
Proof.
  intros. unfold mutate. apply map2_nth; auto.
  rewrite nth_error_map. now rewrite (map2_nth _ _ _ _ _ _ H0 H1).
Qed.

Lemma challenger_in : forall p CR j u F t b a0 a1, okpm p -> isfin F = true ->
  inbounds p t -> inbounds p b -> inbounds p a0 -> inbounds p a1 ->
  inbounds p (challenger p CR j u F t b a0 a1).
Proof.
  intros p CR j u F t b a0 a1 HP HF Ht Hb H0 H1.
  assert (Lm : length (mutate b a0 a1 F) = length b).
  { destruct Ht, Hb, H0, H1. apply mutate_length; congruence. }
  unfold challenger. apply pm_limit_in; auto.
  - unfold crossover. rewrite crossover_from_length, Lm. apply Hb.
  - apply Forall_forall. intros x Hx. apply In_nth_error in Hx. destruct Hx as [n Hx].
    assert (Hn : (n < length b)%nat).
    { rewrite <- Lm. rewrite <- (crossover_from_length CR j u t (mutate b a0 a1 F) 0). apply nth_error_Some.
      unfold crossover in Hx. congruence. }
    destruct (nth_error t n) as [xt|] eqn:Et; [|apply nth_error_None in Et; destruct Ht, Hb; lia].
    destruct (nth_error b n) as [xb|] eqn:Eb; [|apply nth_error_None in Eb; lia].
    destruct (nth_error a0 n) as [x0|] eqn:E0; [|apply nth_error_None in E0; destruct H0, Hb; lia].
    destruct (nth_error a1 n) as [x1|] eqn:E1; [|apply nth_error_None in E1; destruct H1, Hb; lia].
    rewrite (crossover_nth CR j u t _ n _ _ Et (mutate_nth _ _ _ F _ _ _ _ Eb E0 E1)) in Hx.
    injection Hx as <-.
    destruct (proj2 Ht _ _ Et) as (lo & hi & A1 & A2 & A3 & A4).
    destruct (proj2 Hb _ _ Eb) as (lo' & hi' & B1 & B2 & B3 & B4).
    destruct (proj2 H0 _ _ E0) as (lo'' & hi'' & C1 & C2 & C3 & C4).
    destruct (proj2 H1 _ _ E1) as (lo3 & hi3 & D1 & D2 & D3 & D4).
    assert (lo' = lo) by congruence. assert (hi' = hi) by congruence.
    assert (lo'' = lo) by congruence. assert (hi'' = hi) by congruence.
    assert (lo3 = lo) by congruence. assert (hi3 = hi) by congruence. subst.
    destruct (proj2 HP _ _ _ A1 A2) as (O1 & O2 & O3).
    assert (isnan (fadd xb (fmul (fsub x0 x1) F)) = false) by (apply (mutant1_nan lo hi); unfold inb; auto).
    apply fleb_spec in A3. destruct A3 as (_ & Nt & _).
    destruct (Nat.eqb n j), (fltb CR (u n)); auto.
Qed.

(** ** unity conversion *)
Lemma unity_inverse1 : forall lo hi u, lo < hi -> toUnityR lo hi (fromUnityR lo hi u) = u.
Proof. intros. unfold toUnityR, fromUnityR. field. lra. Qed.
Lemma unity_inverse2 : forall lo hi v, lo < hi -> fromUnityR lo hi (toUnityR lo hi v) = v.
Proof. intros. unfold toUnityR, fromUnityR. field. lra. Qed.
Lemma unity_ends : forall lo hi, fromUnityR lo hi 0 = lo /\ fromUnityR lo hi 1 = hi.
Proof. intros; unfold fromUnityR; lra. Qed.
Lemma unity_mono : forall lo hi u u', lo < hi -> (u < u' <-> fromUnityR lo hi u < fromUnityR lo hi u').
Proof.
  intros. unfold fromUnityR. split; intros.
  - apply Rplus_lt_compat_l, Rmult_lt_compat_l; lra.
  - apply Rmult_lt_reg_l with (hi - lo); lra.
Qed.
Lemma unity_range : forall lo hi u, lo < hi -> (0 <= u <= 1 <-> lo <= fromUnityR lo hi u <= hi).
Proof.
  intros. unfold fromUnityR. split; intros [A B].
  - split.
    + assert (0 <= (hi - lo) * u) by (apply Rmult_le_pos; lra). lra.
    + assert ((hi - lo) * u <= (hi - lo) * 1) by (apply Rmult_le_compat_l; lra). lra.
  - split; apply Rmult_le_reg_l with (hi - lo); lra.
Qed.

(** in floating point: a unit value never maps below the lower bound, nor above
    the rounded lo + (hi - lo) *)
Lemma fromUnity_float : forall lo hi u, okbound lo -> okbound hi -> fleb lo hi = true ->
  fleb fzero u = true -> fleb u fone = true ->
  fleb lo (fromUnity1 lo hi u) = true /\ fleb (fromUnity1 lo hi u) (fadd lo (fsub hi lo)) = true.
Proof.
  intros lo hi u Hl Hh L U0 U1.
  assert (One : key fone = 1).
  { unfold fone, fofZ. destruct (flit_key 1 0) as [_ K]. rewrite K.
    change (bpow radix2 0) with 1. rewrite Rmult_1_r.
    replace 1 with (B2R (B754_finite (prec:=53) (emax:=1024) false 4503599627370496 (-52) eq_refl)).
    - apply crnd_B2R.
    - unfold B2R, F2R. cbn [cond_Zopp Fnum Fexp].
      replace (IZR (Z.pos 4503599627370496)) with (bpow radix2 52) by reflexivity.
      rewrite <- bpow_plus. reflexivity. }
  apply fleb_spec in L, U0, U1. destruct L as (_ & _ & L). destruct U0 as (_ & Nu & U0). destruct U1 as (_ & _ & U1).
  rewrite One in U1. change (key fzero) with 0 in U0.
  assert (Fu : isfin u = true). { apply fin_key; auto. generalize big_pos. unfold big.
    assert (1 < bpow radix2 1024) by (change 1 with (bpow radix2 0); apply bpow_lt; lia). lra. }
  rewrite !key_fin in * by (try apply Hl; try apply Hh; easy).
  destruct Hl as [Fl Bl]. destruct Hh as [Fh Bh].
  assert (Fs := diff_fin hi lo Fh Fl Bh Bl).
  destruct (fsub_key hi lo Fh Fl) as [_ Ks]. rewrite key_fin in Ks by easy.
  assert (S0 : 0 <= B2R (fsub hi lo)) by (rewrite Ks; apply crnd_ge0; lra).
  destruct (fmul_key _ _ Fs Fu) as [Nm Km].
  assert (M0 : 0 <= key (fmul (fsub hi lo) u)) by (rewrite Km; apply crnd_ge0, Rmult_le_pos; auto).
  assert (M1 : key (fmul (fsub hi lo) u) <= B2R (fsub hi lo)).
  { rewrite Km. apply Rle_trans with (crnd (B2R (fsub hi lo))); [apply crnd_mono|rewrite crnd_B2R; apply Rle_refl].
    rewrite <- (Rmult_1_r (B2R (fsub hi lo))) at 2. apply Rmult_le_compat_l; auto. }
  assert (Fm : isfin (fmul (fsub hi lo) u) = true).
  { apply fin_key; auto. generalize (fin_bound (fsub hi lo)). generalize big_pos. lra. }
  rewrite key_fin in M0, M1 by easy.
  destruct (fadd_key _ _ Fl Fm) as [Na Ka]. destruct (fadd_key _ _ Fl Fs) as [Nb Kb].
  unfold fromUnity1. split; apply fleb_spec.
  - split; [now apply nan_fin|]. split; auto. rewrite Ka, key_fin by easy.
    apply Rle_trans with (crnd (B2R lo)); [rewrite crnd_B2R; apply Rle_refl|]. apply crnd_mono. lra.
  - repeat split; auto. rewrite Ka, Kb. apply crnd_mono. lra.
Qed.

(** ** constraints *)
Lemma check_all_true : forall cs d, check_all cs d = Ok true <-> Forall (fun f : constr => f d = Ok true) cs.
Proof.
  induction cs as [|f cs IH]; simpl; intros d.
  - split; auto.
  - split; intros H.
    + destruct (f d) as [[|]|] eqn:E; try discriminate. constructor; auto. now apply IH.
    + inversion H as [|? ? H1 H2]; subst. rewrite H1. now apply IH.
Qed.
Lemma passes_iff : forall names cs v, passesConstraints names cs v = Ok true <->
  Forall (fun f : constr => f (mk_params names v) = Ok true) cs.
Proof.
  intros. unfold passesConstraints. destruct cs; [split; auto|apply check_all_true].
Qed.
Lemma check_all_pure : forall cs d, Forall (fun f : constr => exists b, f d = Ok b) cs ->
  exists b, check_all cs d = Ok b.
Proof.
  induction 1 as [|f cs [b E] _ IH]; simpl; eauto. rewrite E. destruct b; eauto.
Qed.
Lemma passes_perm : forall names cs cs' v, Permutation cs cs' ->
  Forall (fun f : constr => exists b, f (mk_params names v) = Ok b) cs ->
  passesConstraints names cs v = passesConstraints names cs' v.
Proof.
  intros names cs cs' v P F.
  assert (F' : Forall (fun f : constr => exists b, f (mk_params names v) = Ok b) cs') by (eapply Permutation_Forall; eauto).
  assert (T : forall l, Forall (fun f : constr => exists b, f (mk_params names v) = Ok b) l -> exists b, passesConstraints names l v = Ok b).
  { intros l Hl. unfold passesConstraints. destruct l; eauto. now apply check_all_pure. }
  destruct (T cs F) as [b E]. destruct (T cs' F') as [b' E'].
  rewrite E, E'. f_equal.
  destruct b, b'; auto; exfalso.
  - assert (passesConstraints names cs' v = Ok true); [|congruence].
    apply passes_iff. eapply Permutation_Forall; eauto. now apply passes_iff.
  - assert (passesConstraints names cs v = Ok true); [|congruence].
    apply passes_iff. eapply Permutation_Forall; [apply Permutation_sym; eauto|]. now apply passes_iff.
Qed.

Lemma dict_get_set : forall d k v k', dict_get (dict_set d k v) k' = if String.eqb k' k then Some v else dict_get d k'.
Proof.
  induction d as [|[a b] d IH]; simpl; intros k v k'; auto.
  destruct (String.eqb k a) eqn:E.
  - apply String.eqb_eq in E. subst. simpl. destruct (String.eqb k' a); auto.
  - simpl. destruct (String.eqb k' a) eqn:E'; [|apply IH].
    destruct (String.eqb k' k) eqn:E2; auto.
    apply String.eqb_eq in E', E2. subst. rewrite String.eqb_refl in E. discriminate.
Qed.
Lemma fold_dict_get : forall l d k,
  (~ In k (map fst l)) -> dict_get (fold_left (fun d kv => dict_set d (fst kv) (snd kv)) l d) k = dict_get d k.
Proof.
  induction l as [|[a b] l IH]; simpl; intros d k H; auto.
  rewrite IH by tauto. rewrite dict_get_set. destruct (String.eqb k a) eqn:E; auto.
  apply String.eqb_eq in E. subst. tauto.
Qed.
Lemma params_get : forall names values k n v, NoDup names ->
  nth_error names k = Some n -> nth_error values k = Some v ->
  dict_get (mk_params names values) n = Some v.
Proof.
  intros names values. unfold mk_params. generalize (@nil (string * f64)). revert values.
  induction names as [|a names IH]; intros values d k n v ND Hn Hv; [now destruct k|].
  destruct values as [|b values]; [now destruct k|]. inversion ND as [|? ? N1 N2]; subst.
  destruct k; simpl in *.
  - injection Hn as ->. injection Hv as ->.
    rewrite fold_dict_get.
    + rewrite dict_get_set. now rewrite String.eqb_refl.
    + intros C. apply N1. apply in_map_iff in C. destruct C as [[x y] [<- C]]. apply in_combine_l in C. exact C.
  - eapply IH; eauto.
Qed.
Lemma params_only : forall names values n, ~ In n names -> dict_get (mk_params names values) n = None.
Proof.
  intros names values n H. unfold mk_params. rewrite fold_dict_get; auto.
  intros C. apply H. apply in_map_iff in C. destruct C as [[x y] [<- C]]. now apply in_combine_l in C.
Qed.

Lemma all_callable_spec : forall args l, all_callable args = Some l <-> args = map Some l.
Proof.
  induction args as [|[f|] args IH]; simpl; intros l.
  - split; intros H; [now injection H as <-|destruct l; now simpl in H].
  - destruct (all_callable args) as [l'|] eqn:E; simpl.
    + split; intros H.
      * injection H as <-. simpl. f_equal. now apply IH.
      * destruct l; [discriminate|]. simpl in H. injection H as -> H. apply IH in H. congruence.
    + split; [discriminate|]. intros H. destruct l; [discriminate|]. simpl in H. injection H as -> H.
      apply IH in H. discriminate.
  - split; [discriminate|]. intros H. destruct l; discriminate.
Qed.
Lemma setConstraints_spec : forall old args,
  (forall l, args = map Some l -> setConstraints old args = (l, None)) /\
  (In None args -> setConstraints old args = (old, Some ValueError)).
Proof.
  intros old args. unfold setConstraints. split.
  - intros l H. apply all_callable_spec in H. now rewrite H.
  - intros H. destruct (all_callable args) as [l|] eqn:E; auto.
    apply all_callable_spec in E. subst. apply in_map_iff in H. destruct H as [x [H _]]. discriminate.
Qed.

(** ** names *)
Lemma sinsert_perm : forall x l, Permutation (sinsert x l) (x :: l).
Proof.
  induction l; simpl; auto. destruct (String.leb x a); auto.
  eapply perm_trans; [apply perm_skip, IHl|apply perm_swap].
Qed.
Lemma ssort_perm : forall l, Permutation (ssort l) l.
Proof. induction l; simpl; auto. eapply perm_trans; [apply sinsert_perm|]. now apply perm_skip. Qed.
Lemma leb_total_s : forall x y, String.leb x y = false -> String.leb y x = true.
Proof.
  intros x y. unfold String.leb. rewrite (String.compare_antisym y x).
  destruct (String.compare x y); simpl; congruence.
Qed.
Definition sle (a b : string) : Prop := String.leb a b = true.
Lemma ascii_compare_N : forall a b : ascii, Ascii.compare a b = N.compare (N_of_ascii a) (N_of_ascii b).
Proof. reflexivity. Qed.
Lemma scompare_trans_le : forall a b c, sle a b -> sle b c -> sle a c.
Proof.
  unfold sle, String.leb. induction a as [|x a IH]; intros b c H1 H2.
  - destruct c; auto.
  - destruct b as [|y b]; [discriminate|]. destruct c as [|z c]; [simpl in H2; discriminate|].
    simpl in *. rewrite ascii_compare_N in *.
    destruct (N.compare_spec (N_of_ascii x) (N_of_ascii y)) as [E1|E1|E1]; try discriminate;
    destruct (N.compare_spec (N_of_ascii y) (N_of_ascii z)) as [E2|E2|E2]; try discriminate.
    + rewrite E1, E2, N.compare_refl. eapply IH; eauto.
    + destruct (N.compare_spec (N_of_ascii x) (N_of_ascii z)); auto; lia.
    + destruct (N.compare_spec (N_of_ascii x) (N_of_ascii z)); auto; lia.
    + destruct (N.compare_spec (N_of_ascii x) (N_of_ascii z)); auto; lia.
Qed.
Lemma sinsert_hd : forall x y l, sle y x -> HdRel sle y l -> HdRel sle y (sinsert x l).
Proof. intros x y l H H0. destruct l; simpl; auto. destruct (String.leb x s); auto. inversion H0; auto. Qed.
Lemma sinsert_sorted : forall x l, Sorted sle l -> Sorted sle (sinsert x l).
Proof.
  induction 1; simpl; auto.
  destruct (String.leb x a) eqn:E; auto.
  constructor; auto. apply sinsert_hd; auto. now apply leb_total_s.
Qed.
Lemma ssort_sorted : forall l, Sorted sle (ssort l).
Proof. induction l; simpl; auto. now apply sinsert_sorted. Qed.

Lemma index_of_nth : forall A (p : A -> bool) l k, index_of p l = Some k ->
  exists x, nth_error l k = Some x /\ p x = true /\ forall j y, (j < k)%nat -> nth_error l j = Some y -> p y = false.
Proof.
  induction l as [|a l IH]; simpl; intros k H; [discriminate|].
  destruct (p a) eqn:E.
  - injection H as <-. exists a. repeat split; auto. intros; lia.
  - destruct (index_of p l) as [k'|] eqn:E'; [|discriminate]. injection H as <-.
    destruct (IH k' eq_refl) as (x & H1 & H2 & H3). exists x. repeat split; auto.
    intros [|j] y Hj Hy; simpl in Hy; [congruence|]. apply (H3 j); auto. lia.
Qed.
Lemma index_of_in : forall A (p : A -> bool) l x, In x l -> p x = true -> exists k, index_of p l = Some k.
Proof.
  induction l as [|a l IH]; simpl; intros x H Hp; [destruct H|]. destruct H as [H|H].
  - subst. rewrite Hp. eauto.
  - destruct (p a); eauto. destruct (IH x H Hp) as [k ->]. simpl; eauto.
Qed.
Lemma sindex_nth : forall names n, In n names ->
  nth_error names (sindex names n) = Some n /\ forall j, (j < sindex names n)%nat -> nth_error names j <> Some n.
Proof.
  intros names n H. unfold sindex.
  destruct (index_of_in _ (String.eqb n) names n H (String.eqb_refl n)) as [k E]. rewrite E.
  destruct (index_of_nth _ _ _ _ E) as (x & H1 & H2 & H3). apply String.eqb_eq in H2. subst.
  split; auto. intros j Hj C. specialize (H3 j x Hj C). rewrite String.eqb_refl in H3. discriminate.
Qed.
Lemma sortedNameIndices_names : forall names,
  namerator_names names = map Some (ssort names).
Proof.
  intros. unfold namerator_names, sortedNameIndices. rewrite map_map.
  apply map_ext_in. intros n H. apply sindex_nth. eapply Permutation_in; [apply ssort_perm|]. auto.
Qed.
Lemma NoDup_nth_inj : forall A (l : list A) i j x, NoDup l -> nth_error l i = Some x -> nth_error l j = Some x -> i = j.
Proof.
  intros A l i j x ND H1 H2. eapply NoDup_nth_error; eauto.
  - apply nth_error_Some. congruence.
  - congruence.
Qed.
Lemma sortedNameIndices_perm : forall names, NoDup names ->
  Permutation (sortedNameIndices names) (seq 0 (length names)).
Proof.
  intros names ND. apply NoDup_Permutation_bis.
  - unfold sortedNameIndices.
    assert (NDs : NoDup (ssort names)) by (eapply Permutation_NoDup; [apply Permutation_sym, ssort_perm|auto]).
    assert (Sub : forall n, In n (ssort names) -> In n names) by (intros; eapply Permutation_in; [apply ssort_perm|auto]).
    induction (ssort names) as [|a l IH]; simpl; constructor.
    + intros C. apply in_map_iff in C. destruct C as [b [E Hb]].
      destruct (sindex_nth names a) as [A1 _]; [apply Sub; simpl; auto|].
      destruct (sindex_nth names b) as [B1 _]; [apply Sub; simpl; auto|].
      rewrite E in B1. assert (a = b) by congruence. subst. inversion NDs; auto.
    + apply IH. now inversion NDs. intros; apply Sub; simpl; auto.
  - rewrite seq_length. unfold sortedNameIndices. rewrite map_length.
    rewrite (Permutation_length (ssort_perm names)). auto.
  - intros k H. unfold sortedNameIndices in H. apply in_map_iff in H. destruct H as [n [E Hn]].
    assert (In n names) by (eapply Permutation_in; [apply ssort_perm|auto]).
    destruct (sindex_nth names n H) as [A _]. rewrite E in A. apply in_seq.
    split; [lia|]. simpl. apply nth_error_Some. congruence.
Qed.

(** ** stars *)
Lemma suffix_spec : forall lo hi v,
  let u := fdiv (fsub v lo) (fsub hi lo) in
  (suffix lo hi v = OneStar <-> fltb u f_0_05 = true) /\
  (suffix lo hi v = TwoStars <-> fltb f_0_95 u = true).
Proof.
  intros lo hi v u. unfold suffix. fold u.
  destruct (fltb u f_0_05) eqn:E1; destruct (fltb f_0_95 u) eqn:E2; split; split; try easy.
  intros _. exfalso. assert (H := fltb_trans _ _ _ E2 E1). vm_compute in H. discriminate.
Qed.

Lemma fdiv_self : forall x, isfin x = true -> B2R x <> 0 -> fltb f_0_95 (fdiv x x) = true.
Proof.
  intros x F Z. generalize (Bdiv_correct 53 1024 _ _ mode_NE x x Z).
  assert (E : B2R x / B2R x = 1) by (field; auto). rewrite E.
  assert (One : 1 = B2R (B754_finite (prec:=53) (emax:=1024) false 4503599627370496 (-52) eq_refl)).
  { unfold B2R, F2R. cbn [cond_Zopp Fnum Fexp].
    replace (IZR (Z.pos 4503599627370496)) with (bpow radix2 52) by reflexivity.
    rewrite <- bpow_plus. reflexivity. }
  assert (G : round radix2 (SpecFloat.fexp 53 1024) (round_mode mode_NE) 1 = 1).
  { change (rnd 1 = 1). rewrite One. apply rnd_B2R. }
  rewrite G, Rlt_bool_true.
  - intros (H1 & H2 & _). fold (fdiv x x) in H1, H2.
    assert (F1 : isfin (fdiv x x) = true) by (unfold isfin; rewrite H2; exact F).
    apply fltb_spec. split; [reflexivity|]. split; [now apply nan_fin|]. rewrite (key_fin _ F1), H1.
    assert (L : fltb f_0_95 (B754_finite (prec:=53) (emax:=1024) false 4503599627370496 (-52) eq_refl) = true) by reflexivity.
    apply fltb_spec in L. destruct L as (_ & _ & L). rewrite (key_fin (B754_finite _ _ _ _)) in L by reflexivity. lra.
  - rewrite Rabs_pos_eq by lra. change 1 with (bpow radix2 0). apply bpow_lt. lia.
Qed.
Lemma fdiv_zero : forall z x, isfin z = true -> isfin x = true -> B2R z = 0 -> B2R x <> 0 -> fltb (fdiv z x) f_0_05 = true.
Proof.
  intros z x Fz F Z0 Z. generalize (Bdiv_correct 53 1024 _ _ mode_NE z x Z).
  assert (E : B2R z / B2R x = 0) by (rewrite Z0; field; auto). rewrite E.
  assert (G : round radix2 (SpecFloat.fexp 53 1024) (round_mode mode_NE) 0 = 0) by exact rnd_0.
  rewrite G, Rlt_bool_true.
  - intros (H1 & H2 & _). fold (fdiv z x) in H1, H2.
    assert (F1 : isfin (fdiv z x) = true) by (unfold isfin; rewrite H2; exact Fz).
    apply fltb_spec. split; [now apply nan_fin|]. split; [reflexivity|]. rewrite (key_fin _ F1), H1.
    assert (L : fltb fzero f_0_05 = true) by reflexivity.
    apply fltb_spec in L. destruct L as (_ & _ & L). exact L.
  - rewrite Rabs_R0. apply bpow_gt_0.
Qed.
Lemma suffix_ends : forall lo hi, isfin lo = true -> isfin hi = true -> fltb lo hi = true ->
  isfin (fsub hi lo) = true -> suffix lo hi lo = OneStar /\ suffix lo hi hi = TwoStars.
Proof.
  intros lo hi Fl Fh L Fs.
  assert (Z : B2R (fsub hi lo) <> 0).
  { (* Sterbenz-free: subtraction of distinct floats is non zero, by gradual underflow *)
    apply fltb_spec in L. destruct L as (_ & _ & L). rewrite !key_fin in L by easy.
    destruct (fsub_key hi lo Fh Fl) as [_ K]. rewrite key_fin in K by easy. rewrite K. intros C.
    assert (R0 : rnd (B2R hi - B2R lo) <> 0).
    { unfold rnd. unfold Rminus. apply round_plus_neq_0; auto with typeclass_instances.
      - apply fexp_correct; reflexivity.
      - apply (FLT_exp_monotone (SpecFloat.emin 53 1024) 53) || apply (monotone_exp_not_FTZ (FLT_exp (SpecFloat.emin 53 1024) 53)).
      - apply generic_format_B2R.
      - apply generic_format_opp, generic_format_B2R.
      - lra. }
    assert (R1 : 0 <= rnd (B2R hi - B2R lo)) by (rewrite <- rnd_0; apply rnd_mono; lra).
    revert C. unfold crnd, clamp, Rmax, Rmin. generalize big_pos. repeat destruct Rle_dec; lra. }
  split; apply suffix_spec.
  - destruct (fsub_key lo lo Fl Fl) as [N0 K0]. replace (B2R lo - B2R lo) with 0 in K0 by ring. rewrite crnd_0 in K0.
    assert (F0 : isfin (fsub lo lo) = true) by (apply fin_key; auto; rewrite K0; generalize big_pos; lra).
    apply fdiv_zero; auto. now rewrite <- key_fin.
  - apply fdiv_self; auto.
Qed.
