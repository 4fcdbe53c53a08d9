(** * IEEE binary64 as used by python floats and numpy float64.

    Not a model of code in /repo but of the number system it computes with:
    Flocq's [binary_float 53 1024] with a single NaN and rounding to nearest
    even.  Executable; the proofs only use the real-number semantics [B2R]. *)
From Coq Require Import ZArith Reals Lia Lra Bool List.
From Flocq Require Import Core BinarySingleNaN.
Local Open Scope Z_scope.

Definition f64 : Set := binary_float 53 1024.

Lemma Hprec64 : Prec_gt_0 53. Proof. reflexivity. Qed.
Lemma Hmax64 : Prec_lt_emax 53 1024. Proof. reflexivity. Qed.
Lemma Hprec32 : Prec_gt_0 24. Proof. reflexivity. Qed.
Lemma Hmax32 : Prec_lt_emax 24 128. Proof. reflexivity. Qed.
#[export] Existing Instance Hprec64.
#[export] Existing Instance Hmax64.
#[export] Existing Instance Hprec32.
#[export] Existing Instance Hmax32.

(** ** Operations *)
Definition fadd (x y : f64) : f64 := Bplus mode_NE x y.
Definition fsub (x y : f64) : f64 := Bminus mode_NE x y.
Definition fmul (x y : f64) : f64 := Bmult mode_NE x y.
Definition fdiv (x y : f64) : f64 := Bdiv mode_NE x y.
Definition fsqrt (x : f64) : f64 := Bsqrt mode_NE x.
Definition fabs (x : f64) : f64 := Babs x.
Definition fopp (x : f64) : f64 := Bopp x.
(** np.round: to an integral float, ties to even *)
Definition frint (x : f64) : f64 := Bnearbyint mode_NE x.
(** python int(x) for finite x: truncation towards zero *)
Definition ftrunc (x : f64) : Z := Btrunc x.
Definition fltb (x y : f64) : bool := Bltb x y.
Definition fleb (x y : f64) : bool := Bleb x y.
Definition feqb (x y : f64) : bool := Beqb x y.
Definition isnan (x : f64) : bool := is_nan x.
Definition isfin (x : f64) : bool := is_finite x.
Definition isinf (x : f64) : bool :=
  match x with B754_infinity _ => true | _ => false end.

Definition fzero : f64 := B754_zero false.
Definition fnzero : f64 := B754_zero true.
Definition finf : f64 := B754_infinity false.
Definition fninf : f64 := B754_infinity true.
Definition fnan : f64 := B754_nan.

(** the binary64 number nearest to m * 2^e *)
Definition flit (m e : Z) : f64 := binary_normalize 53 1024 _ _ mode_NE m e false.
(** an int converted to float *)
Definition fofZ (z : Z) : f64 := flit z 0.
Definition fone : f64 := fofZ 1.

(** rounding to single precision ("f4", struct '<f') and widening back *)
Definition to32 (x : f64) : binary_float 24 128 :=
  match x with
  | B754_zero s => B754_zero s
  | B754_infinity s => B754_infinity s
  | B754_nan => B754_nan
  | B754_finite s m e _ => binary_normalize 24 128 _ _ mode_NE (cond_Zopp s (Zpos m)) e s
  end.
Definition of32 (x : binary_float 24 128) : f64 :=
  match x with
  | B754_zero s => B754_zero s
  | B754_infinity s => B754_infinity s
  | B754_nan => B754_nan
  | B754_finite s m e _ => binary_normalize 53 1024 _ _ mode_NE (cond_Zopp s (Zpos m)) e s
  end.
Definition rnd32 (x : f64) : f64 := of32 (to32 x).

(** ** Real semantics with infinities at +-2^1024 *)
Local Open Scope R_scope.
Definition big : R := bpow radix2 1024.
Definition key (x : f64) : R :=
  match x with
  | B754_infinity s => if s then - big else big
  | _ => B2R x
  end.
Definition rnd (r : R) : R := round radix2 (SpecFloat.fexp 53 1024) ZnearestE r.
Definition clamp (r : R) : R := Rmax (- big) (Rmin big r).
Definition crnd (r : R) : R := clamp (rnd r).

Lemma big_pos : 0 < big. Proof. apply bpow_gt_0. Qed.

Lemma key_fin : forall x, isfin x = true -> key x = B2R x.
Proof. now intros [s|s| |s m e H]. Qed.

Lemma fin_bound : forall x : f64, - big < B2R x < big.
Proof. intros x. generalize (abs_B2R_lt_emax 53 1024 x). unfold big. intros H.
  now apply Rabs_lt_inv. Qed.

Lemma key_bound : forall x, - big <= key x <= big.
Proof. intros x. generalize (fin_bound x). destruct x as [s|[|]| |s m e H]; simpl; generalize big_pos; lra. Qed.

Lemma clamp_id : forall r, - big <= r <= big -> clamp r = r.
Proof. intros r [H1 H2]. unfold clamp. rewrite Rmin_right, Rmax_right; lra. Qed.

Lemma clamp_mono : forall a b, a <= b -> clamp a <= clamp b.
Proof. intros a b H. unfold clamp, Rmax, Rmin. generalize big_pos; intros. repeat destruct Rle_dec; lra. Qed.

Lemma clamp_bound : forall a, - big <= clamp a <= big.
Proof. intros a. unfold clamp. generalize big_pos; intros. split. apply Rmax_l.
  apply Rmax_lub. lra. apply Rmin_l. Qed.

Lemma rnd_mono : forall a b, a <= b -> rnd a <= rnd b.
Proof. intros. unfold rnd. apply round_le; auto with typeclass_instances. apply fexp_correct; reflexivity. Qed.

Lemma crnd_mono : forall a b, a <= b -> crnd a <= crnd b.
Proof. intros. now apply clamp_mono, rnd_mono. Qed.

Lemma rnd_B2R : forall x : f64, rnd (B2R x) = B2R x.
Proof. intros x. unfold rnd. apply round_generic; auto with typeclass_instances. apply generic_format_B2R. Qed.

Lemma crnd_B2R : forall x : f64, crnd (B2R x) = B2R x.
Proof. intros x. unfold crnd. rewrite rnd_B2R, clamp_id; auto. generalize (fin_bound x); lra. Qed.

Lemma rnd_0 : rnd 0 = 0. Proof. unfold rnd. apply round_0. auto with typeclass_instances. Qed.
Lemma crnd_0 : crnd 0 = 0. Proof. unfold crnd. rewrite rnd_0. apply clamp_id. generalize big_pos; lra. Qed.

Lemma big_format : generic_format radix2 (SpecFloat.fexp 53 1024) big.
Proof. apply generic_format_bpow. unfold SpecFloat.fexp, SpecFloat.emin. lia. Qed.
Lemma rnd_big : rnd big = big.
Proof. unfold rnd. apply round_generic; auto with typeclass_instances. apply big_format. Qed.
Lemma rnd_opp : forall r, rnd (- r) = - rnd r.
Proof. intros. unfold rnd. apply round_NE_opp. Qed.
Lemma crnd_opp : forall r, crnd (- r) = - crnd r.
Proof. intros. unfold crnd. rewrite rnd_opp. unfold clamp, Rmax, Rmin.
  generalize big_pos; intros. repeat destruct Rle_dec; lra. Qed.
Lemma crnd_big : forall r, big <= r -> crnd r = big.
Proof. intros r H. unfold crnd. assert (H1:=rnd_mono _ _ H). rewrite rnd_big in H1.
  unfold clamp. rewrite Rmin_left by easy. rewrite Rmax_right; generalize big_pos; lra. Qed.
Lemma crnd_key : forall x, crnd (key x) = key x.
Proof. intros [s|[|]| |s m e H]; simpl; try apply crnd_0.
  - rewrite crnd_opp, crnd_big; lra.
  - apply crnd_big; lra.
  - apply (crnd_B2R (B754_finite s m e H)). Qed.

(** comparison of non-NaN numbers is comparison of keys *)
Lemma fcmp_key : forall x y, isnan x = false -> isnan y = false ->
  Bcompare x y = Some (Rcompare (key x) (key y)).
Proof.
  intros x y Hx Hy.
  destruct (isfin x) eqn:Fx; destruct (isfin y) eqn:Fy.
  - rewrite !key_fin by easy. now apply Bcompare_correct.
  - generalize (fin_bound x). rewrite (key_fin x) by easy.
    destruct y as [s|[|]| |s m e H]; try easy; destruct x as [sx|[|]| |[|] mx ex Hx']; try easy; simpl key; intros; cbn [Bcompare B2SF SpecFloat.SFcompare];
    f_equal; symmetry; try (apply Rcompare_Lt; lra); try (apply Rcompare_Gt; lra).
  - generalize (fin_bound y). rewrite (key_fin y) by easy.
    destruct x as [s|[|]| |s m e H]; try easy; destruct y as [sx|[|]| |[|] mx ex Hx']; try easy; simpl key; intros; cbn [Bcompare B2SF SpecFloat.SFcompare];
    f_equal; symmetry; try (apply Rcompare_Lt; lra); try (apply Rcompare_Gt; lra).
  - generalize big_pos; destruct x as [s|[|]| |s m e H]; try easy; destruct y as [sx|[|]| |[|] mx ex Hx']; try easy; cbn [key Bcompare B2SF SpecFloat.SFcompare]; intros;
    f_equal; symmetry; try (apply Rcompare_Eq; lra); try (apply Rcompare_Lt; lra); try (apply Rcompare_Gt; lra).
Qed.

Lemma fltb_key : forall x y, isnan x = false -> isnan y = false ->
  (fltb x y = true <-> key x < key y).
Proof.
  intros x y Hx Hy. unfold fltb, Bltb, SpecFloat.SFltb.
  change (SpecFloat.SFcompare (B2SF x) (B2SF y)) with (Bcompare x y). rewrite fcmp_key by easy.
  case Rcompare_spec; intros; split; intros; try easy; lra.
Qed.
Lemma fleb_key : forall x y, isnan x = false -> isnan y = false ->
  (fleb x y = true <-> key x <= key y).
Proof.
  intros x y Hx Hy. unfold fleb, Bleb, SpecFloat.SFleb.
  change (SpecFloat.SFcompare (B2SF x) (B2SF y)) with (Bcompare x y). rewrite fcmp_key by easy.
  case Rcompare_spec; intros; split; intros; try easy; lra.
Qed.
Lemma feqb_key : forall x y, isnan x = false -> isnan y = false ->
  (feqb x y = true <-> key x = key y).
Proof.
  intros x y Hx Hy. unfold feqb, Beqb, SpecFloat.SFeqb.
  change (SpecFloat.SFcompare (B2SF x) (B2SF y)) with (Bcompare x y). rewrite fcmp_key by easy.
  case Rcompare_spec; intros; split; intros; try easy; lra.
Qed.
Lemma fltb_nan : forall x y, fltb x y = true -> isnan x = false /\ isnan y = false.
Proof. intros [s|[|]| |[|] m e H] [s'|[|]| |[|] m' e' H']; easy. Qed.
Lemma fleb_nan : forall x y, fleb x y = true -> isnan x = false /\ isnan y = false.
Proof. intros [s|[|]| |[|] m e H] [s'|[|]| |[|] m' e' H']; easy. Qed.
Lemma feqb_nan : forall x y, feqb x y = true -> isnan x = false /\ isnan y = false.
Proof. intros [s|[|]| |[|] m e H] [s'|[|]| |[|] m' e' H']; easy. Qed.

Lemma fltb_spec : forall x y, fltb x y = true <-> isnan x = false /\ isnan y = false /\ key x < key y.
Proof. intros x y. split.
  - intros H. destruct (fltb_nan _ _ H) as [H1 H2]. repeat split; auto. now apply fltb_key.
  - intros (H1 & H2 & H3). now apply fltb_key. Qed.
Lemma fleb_spec : forall x y, fleb x y = true <-> isnan x = false /\ isnan y = false /\ key x <= key y.
Proof. intros x y. split.
  - intros H. destruct (fleb_nan _ _ H) as [H1 H2]. repeat split; auto. now apply fleb_key.
  - intros (H1 & H2 & H3). now apply fleb_key. Qed.
Lemma feqb_spec : forall x y, feqb x y = true <-> isnan x = false /\ isnan y = false /\ key x = key y.
Proof. intros x y. split.
  - intros H. destruct (feqb_nan _ _ H) as [H1 H2]. repeat split; auto. now apply feqb_key.
  - intros (H1 & H2 & H3). now apply feqb_key. Qed.
Lemma fltb_false : forall x y, isnan x = false -> isnan y = false -> fltb x y = false -> key y <= key x.
Proof. intros x y Hx Hy H. apply Rnot_lt_le. intros H1. apply (fltb_key x y Hx Hy) in H1. congruence. Qed.

Lemma fltb_irrefl : forall x, fltb x x = false.
Proof. intros x. destruct (fltb x x) eqn:E; auto. apply fltb_spec in E. lra. Qed.
Lemma fltb_trans : forall x y z, fltb x y = true -> fltb y z = true -> fltb x z = true.
Proof. intros x y z H1 H2. apply fltb_spec in H1, H2. apply fltb_spec. intuition lra. Qed.
Lemma fltb_asym : forall x y, fltb x y = true -> fltb y x = false.
Proof. intros x y H. destruct (fltb y x) eqn:E; auto. apply fltb_spec in H, E. lra. Qed.
Lemma fleb_refl : forall x, isnan x = false -> fleb x x = true.
Proof. intros x H. apply fleb_spec. intuition lra. Qed.
Lemma fleb_trans : forall x y z, fleb x y = true -> fleb y z = true -> fleb x z = true.
Proof. intros x y z H1 H2. apply fleb_spec in H1, H2. apply fleb_spec. intuition lra. Qed.
Lemma fltb_fleb_trans : forall x y z, fltb x y = true -> fleb y z = true -> fltb x z = true.
Proof. intros x y z H1 H2. apply fltb_spec in H1. apply fleb_spec in H2. apply fltb_spec. intuition lra. Qed.
Lemma fleb_fltb_trans : forall x y z, fleb x y = true -> fltb y z = true -> fltb x z = true.
Proof. intros x y z H1 H2. apply fltb_spec in H2. apply fleb_spec in H1. apply fltb_spec. intuition lra. Qed.
Lemma fltb_fleb : forall x y, fltb x y = true -> fleb x y = true.
Proof. intros x y H. apply fltb_spec in H. apply fleb_spec. intuition lra. Qed.
Lemma fleb_total : forall x y, isnan x = false -> isnan y = false -> fleb x y = true \/ fltb y x = true.
Proof. intros x y Hx Hy. destruct (Rle_or_lt (key x) (key y)); [left; apply fleb_key | right; apply fltb_key]; auto. Qed.
Lemma fltb_negb : forall x y, isnan x = false -> isnan y = false -> fltb x y = negb (fleb y x).
Proof. intros x y Hx Hy. destruct (fltb x y) eqn:E.
  - apply fltb_spec in E. destruct (fleb y x) eqn:E1; auto. apply fleb_spec in E1. lra.
  - symmetry. apply negb_false_iff. apply fleb_key; auto. now apply fltb_false. Qed.

(** no two different non-zero non-NaN floats have the same key *)
Lemma key_inj : forall x y, isnan x = false -> isnan y = false -> key x = key y -> key x <> 0 -> x = y.
Proof.
  intros x y Hx Hy H Hz.
  destruct (isfin x) eqn:Fx; destruct (isfin y) eqn:Fy.
  - rewrite (key_fin _ Fx) in *. rewrite (key_fin _ Fy) in *.
    apply (B2R_inj 53 1024); auto.
    + destruct x as [s|[|]| |s m e He]; try easy; simpl in Hz; lra.
    + destruct y as [s|[|]| |s m e He]; try easy; simpl in H; lra.
  - exfalso. generalize (fin_bound x). rewrite (key_fin _ Fx) in *. destruct y as [s|[|]| |s m e He]; try easy; simpl in H; lra.
  - exfalso. generalize (fin_bound y). rewrite (key_fin _ Fy) in *. destruct x as [s|[|]| |s m e He]; try easy; simpl in H; lra.
  - generalize big_pos. destruct x as [s|[|]| |s m e He]; try easy; destruct y as [s'|[|]| |s' m' e' He']; try easy; simpl in H; lra.
Qed.

(** ** Arithmetic in terms of keys *)
Lemma overflow_key : forall (z : f64) s, B2SF z = binary_overflow 53 1024 mode_NE s ->
  isnan z = false /\ key z = if s then - big else big.
Proof. intros [?|[|]| |? ? ? ?] [|]; easy. Qed.

Lemma Bsign_neg : forall x : f64, isfin x = true -> Bsign x = true -> B2R x <= 0.
Proof. intros [s|[|]| |[|] m e H] F S; try easy; simpl; try lra. apply F2R_le_0. easy. Qed.
Lemma Bsign_pos : forall x : f64, isfin x = true -> Bsign x = false -> 0 <= B2R x.
Proof. intros [s|[|]| |[|] m e H] F S; try easy; simpl; try lra. apply F2R_ge_0. easy. Qed.

Lemma clamp_over : forall r s, ~ Rabs r < big -> (s = true -> r <= 0) -> (s = false -> 0 <= r) ->
  (if s then - big else big) = clamp r.
Proof.
  intros r s H H1 H2. apply Rnot_lt_le in H. unfold clamp. generalize big_pos; intros.
  destruct s.
  - specialize (H1 eq_refl). rewrite Rabs_left1 in H by easy.
    rewrite Rmin_right by lra. rewrite Rmax_left; lra.
  - specialize (H2 eq_refl). rewrite Rabs_pos_eq in H by easy.
    rewrite Rmin_left by lra. rewrite Rmax_right; lra.
Qed.
Lemma rnd_le0 : forall r, r <= 0 -> rnd r <= 0.
Proof. intros r H. rewrite <- rnd_0. now apply rnd_mono. Qed.
Lemma rnd_ge0 : forall r, 0 <= r -> 0 <= rnd r.
Proof. intros r H. rewrite <- rnd_0. now apply rnd_mono. Qed.
Lemma crnd_ge0 : forall r, 0 <= r -> 0 <= crnd r.
Proof. intros r H. rewrite <- crnd_0. now apply crnd_mono. Qed.
Lemma crnd_le0 : forall r, r <= 0 -> crnd r <= 0.
Proof. intros r H. rewrite <- crnd_0. now apply crnd_mono. Qed.

Lemma nan_fin : forall x : f64, isfin x = true -> isnan x = false.
Proof. now intros [s|s| |s m e H]. Qed.

Lemma fin_key : forall x, isnan x = false -> - big < key x < big -> isfin x = true.
Proof. intros [s|[|]| |s m e H]; simpl; try easy; lra. Qed.

Lemma fadd_key : forall x y, isfin x = true -> isfin y = true ->
  isnan (fadd x y) = false /\ key (fadd x y) = crnd (B2R x + B2R y).
Proof.
  intros x y Fx Fy. generalize (Bplus_correct 53 1024 _ _ mode_NE x y Fx Fy).
  change (round radix2 (SpecFloat.fexp 53 1024) (round_mode mode_NE) (B2R x + B2R y)) with (rnd (B2R x + B2R y)).
  change (Bplus mode_NE x y) with (fadd x y). fold big.
  case Rlt_bool_spec; intros H.
  - intros (H1 & H2 & _). split. now apply nan_fin. rewrite key_fin, H1 by easy. unfold crnd. rewrite clamp_id; auto.
    apply Rabs_def2 in H; lra.
  - intros (H1 & H2). apply overflow_key in H1. destruct H1 as [H0 H1]. split; auto. rewrite H1.
    apply clamp_over. lra.
    + intros S. apply rnd_le0. rewrite S in H2. generalize (Bsign_neg x Fx S) (Bsign_neg y Fy (eq_sym H2)). lra.
    + intros S. apply rnd_ge0. rewrite S in H2. generalize (Bsign_pos x Fx S) (Bsign_pos y Fy (eq_sym H2)). lra.
Qed.
Lemma fsub_key : forall x y, isfin x = true -> isfin y = true ->
  isnan (fsub x y) = false /\ key (fsub x y) = crnd (B2R x - B2R y).
Proof.
  intros x y Fx Fy. generalize (Bminus_correct 53 1024 _ _ mode_NE x y Fx Fy).
  change (round radix2 (SpecFloat.fexp 53 1024) (round_mode mode_NE) (B2R x - B2R y)) with (rnd (B2R x - B2R y)).
  change (Bminus mode_NE x y) with (fsub x y). fold big.
  case Rlt_bool_spec; intros H.
  - intros (H1 & H2 & _). split. now apply nan_fin. rewrite key_fin, H1 by easy. unfold crnd. rewrite clamp_id; auto.
    apply Rabs_def2 in H; lra.
  - intros (H1 & H2). apply overflow_key in H1. destruct H1 as [H0 H1]. split; auto. rewrite H1.
    apply clamp_over. lra.
    + intros S. apply rnd_le0. rewrite S in H2. symmetry in H2. apply negb_true_iff in H2.
      generalize (Bsign_neg x Fx S) (Bsign_pos y Fy H2). lra.
    + intros S. apply rnd_ge0. rewrite S in H2. symmetry in H2. apply negb_false_iff in H2.
      generalize (Bsign_pos x Fx S) (Bsign_neg y Fy H2). lra.
Qed.
Lemma fmul_key : forall x y, isfin x = true -> isfin y = true ->
  isnan (fmul x y) = false /\ key (fmul x y) = crnd (B2R x * B2R y).
Proof.
  intros x y Fx Fy. generalize (Bmult_correct 53 1024 _ _ mode_NE x y).
  change (round radix2 (SpecFloat.fexp 53 1024) (round_mode mode_NE) (B2R x * B2R y)) with (rnd (B2R x * B2R y)).
  change (Bmult mode_NE x y) with (fmul x y). fold big.
  case Rlt_bool_spec; intros H.
  - intros (H1 & H2 & _). fold (isfin x) (isfin y) in H2. rewrite Fx, Fy in H2. change (isfin (fmul x y) = true) in H2.
    split. now apply nan_fin. rewrite key_fin, H1 by easy. unfold crnd. rewrite clamp_id; auto.
    apply Rabs_def2 in H; lra.
  - intros H1. apply overflow_key in H1. destruct H1 as [H0 H1]. split; auto. rewrite H1.
    apply clamp_over. lra.
    + intros S. apply rnd_le0. destruct (Bsign x) eqn:Sx, (Bsign y) eqn:Sy; try easy.
      * generalize (Bsign_neg x Fx Sx) (Bsign_pos y Fy Sy). nra.
      * generalize (Bsign_pos x Fx Sx) (Bsign_neg y Fy Sy). nra.
    + intros S. apply rnd_ge0. destruct (Bsign x) eqn:Sx, (Bsign y) eqn:Sy; try easy.
      * generalize (Bsign_neg x Fx Sx) (Bsign_neg y Fy Sy). nra.
      * generalize (Bsign_pos x Fx Sx) (Bsign_pos y Fy Sy). nra.
Qed.
Lemma fdiv_key : forall x y, isfin x = true -> isfin y = true -> B2R y <> 0 ->
  isnan (fdiv x y) = false /\ key (fdiv x y) = crnd (B2R x / B2R y).
Proof.
  intros x y Fx Fy Hy. generalize (Bdiv_correct 53 1024 _ _ mode_NE x y Hy).
  change (round radix2 (SpecFloat.fexp 53 1024) (round_mode mode_NE) (B2R x / B2R y)) with (rnd (B2R x / B2R y)).
  change (Bdiv mode_NE x y) with (fdiv x y). fold big.
  case Rlt_bool_spec; intros H.
  - intros (H1 & H2 & _). fold (isfin x) in H2. rewrite Fx in H2. change (isfin (fdiv x y) = true) in H2.
    split. now apply nan_fin. rewrite key_fin, H1 by easy. unfold crnd. rewrite clamp_id; auto.
    apply Rabs_def2 in H; lra.
  - intros H1. apply overflow_key in H1. destruct H1 as [H0 H1]. split; auto. rewrite H1.
    assert (Hi : forall r, r <> 0 -> 0 <= r -> 0 <= / r) by (intros r Hr Hr1; left; apply Rinv_0_lt_compat; lra).
    assert (Hi2 : forall r, r <> 0 -> r <= 0 -> / r <= 0) by (intros r Hr Hr1; left; apply Rinv_lt_0_compat; lra).
    apply clamp_over. lra.
    + intros S. apply rnd_le0. unfold Rdiv. destruct (Bsign x) eqn:Sx, (Bsign y) eqn:Sy; try easy.
      * generalize (Bsign_neg x Fx Sx) (Hi _ Hy (Bsign_pos y Fy Sy)). nra.
      * generalize (Bsign_pos x Fx Sx) (Hi2 _ Hy (Bsign_neg y Fy Sy)). nra.
    + intros S. apply rnd_ge0. unfold Rdiv. destruct (Bsign x) eqn:Sx, (Bsign y) eqn:Sy; try easy.
      * generalize (Bsign_neg x Fx Sx) (Hi2 _ Hy (Bsign_neg y Fy Sy)). nra.
      * generalize (Bsign_pos x Fx Sx) (Hi _ Hy (Bsign_pos y Fy Sy)). nra.
Qed.

(** the literal [flit m e] is exact when representable *)
Lemma flit_key : forall m e, isnan (flit m e) = false /\ key (flit m e) = crnd (IZR m * bpow radix2 e).
Proof.
  intros m e. generalize (binary_normalize_correct 53 1024 _ _ mode_NE m e false). cbv zeta.
  change (F2R {| Fnum := m; Fexp := e |}) with (IZR m * bpow radix2 e).
  change (round radix2 (SpecFloat.fexp 53 1024) (round_mode mode_NE) (IZR m * bpow radix2 e)) with (rnd (IZR m * bpow radix2 e)).
  change (binary_normalize 53 1024 Hprec64 Hmax64 mode_NE m e false) with (flit m e).
  fold big. case Rlt_bool_spec; intros H.
  - intros (H1 & H2 & _). change (isfin (flit m e) = true) in H2. split. now apply nan_fin. rewrite key_fin, H1 by easy. unfold crnd.
    rewrite clamp_id; auto. apply Rabs_def2 in H; lra.
  - intros H1. apply overflow_key in H1. destruct H1 as [H0 H1]. split; auto. rewrite H1.
    apply clamp_over. lra.
    + intros S. apply rnd_le0. revert S. case Rlt_bool_spec; intros; try easy; lra.
    + intros S. apply rnd_ge0. revert S. case Rlt_bool_spec; intros; try easy; lra.
Qed.

Lemma isfin_cases : forall x, isnan x = false -> isfin x = true \/ x = finf \/ x = fninf.
Proof. intros [s|[|]| |s m e H]; simpl; auto; try easy. Qed.

(** ** Single precision *)
Definition big32 : R := bpow radix2 128.
Definition r32 (r : R) : R := round radix2 (SpecFloat.fexp 24 128) ZnearestE r.

Lemma r32_mono : forall a b, a <= b -> r32 a <= r32 b.
Proof. intros. unfold r32. apply round_le; auto with typeclass_instances. apply fexp_correct; reflexivity. Qed.
Lemma r32_0 : r32 0 = 0. Proof. unfold r32. apply round_0. auto with typeclass_instances. Qed.

Lemma of32_fin : forall y : binary_float 24 128, is_finite y = true ->
  isfin (of32 y) = true /\ B2R (of32 y) = B2R y.
Proof.
  intros [s|s| |s m e H] F; try easy.
  unfold of32.
  generalize (binary_normalize_correct 53 1024 _ _ mode_NE (cond_Zopp s (Zpos m)) e s). cbv zeta.
  change (F2R {| Fnum := cond_Zopp s (Zpos m); Fexp := e |}) with (B2R (B754_finite (prec:=24) (emax:=128) s m e H)).
  assert (G : round radix2 (SpecFloat.fexp 53 1024) (round_mode mode_NE) (B2R (B754_finite (prec:=24) (emax:=128) s m e H))
     = B2R (B754_finite (prec:=24) (emax:=128) s m e H)).
  { apply round_generic; auto with typeclass_instances.
    apply (generic_inclusion_le radix2 (SpecFloat.fexp 24 128) (SpecFloat.fexp 53 1024) 128%Z); [ | | apply (generic_format_B2R 24 128)].
    - intros e' He'. unfold SpecFloat.fexp, SpecFloat.emin. lia.
    - left. apply (abs_B2R_lt_emax 24 128). }
  rewrite G. rewrite Rlt_bool_true.
  - intros (H1 & H2 & _). split; auto.
  - apply Rlt_trans with (1 := abs_B2R_lt_emax 24 128 _). apply bpow_lt. lia.
Qed.

Lemma to32_fin : forall x, isfin x = true ->
  (Rabs (r32 (B2R x)) < big32 -> is_finite (to32 x) = true /\ B2R (to32 x) = r32 (B2R x)) /\
  (big32 <= Rabs (r32 (B2R x)) -> to32 x = B754_infinity (Rlt_bool (B2R x) 0)).
Proof.
  intros [s|s| |s m e H] F; try easy.
  - simpl. rewrite r32_0, Rabs_R0. split; intros; auto. exfalso. generalize (bpow_gt_0 radix2 128). unfold big32 in *. lra.
  - unfold to32.
    generalize (binary_normalize_correct 24 128 _ _ mode_NE (cond_Zopp s (Zpos m)) e s). cbv zeta.
    change (F2R {| Fnum := cond_Zopp s (Zpos m); Fexp := e |}) with (B2R (B754_finite (prec:=53) (emax:=1024) s m e H)).
    fold (r32 (B2R (B754_finite (prec:=53) (emax:=1024) s m e H))).
    set (x := B754_finite (prec:=53) (emax:=1024) s m e H).
    change (round radix2 (SpecFloat.fexp 24 128) (round_mode mode_NE) (B2R x)) with (r32 (B2R x)). fold big32.
    case Rlt_bool_spec; intros H0 H1; split; intros H2; try lra.
    + tauto.
    + revert H1. destruct binary_normalize as [?|?| |? ? ? ?]; try easy. simpl. unfold binary_overflow. simpl.
      intros H1; now inversion H1.
Qed.

Lemma rnd32_nan : forall x, isnan (rnd32 x) = isnan x.
Proof.
  intros x. destruct (isfin x) eqn:F.
  - rewrite (nan_fin _ F). destruct (to32_fin x F) as [H1 H2].
    destruct (Rlt_or_le (Rabs (r32 (B2R x))) big32) as [H|H].
    + apply nan_fin. apply of32_fin. now apply H1.
    + unfold rnd32. rewrite H2; auto.
  - now destruct x.
Qed.

Definition clamp32 (r : R) : R := if Rlt_bool (Rabs r) big32 then r else if Rlt_bool r 0 then - big else big.

Lemma clamp32_mono : forall a b, a <= b -> clamp32 a <= clamp32 b.
Proof.
  intros a b H. assert (Hb : 0 < big32) by apply bpow_gt_0.
  assert (Hbb : big32 < big) by (apply bpow_lt; lia).
  unfold clamp32.
  destruct (Rlt_bool_spec (Rabs a) big32) as [A|A]; destruct (Rlt_bool_spec (Rabs b) big32) as [B|B];
  destruct (Rlt_bool_spec a 0) as [C|C]; destruct (Rlt_bool_spec b 0) as [D|D];
  revert A B; unfold Rabs; destruct (Rcase_abs a); destruct (Rcase_abs b); lra.
Qed.

Lemma rnd32_key : forall x, isfin x = true -> key (rnd32 x) = clamp32 (r32 (B2R x)).
Proof.
  intros x F. destruct (to32_fin x F) as [H1 H2]. unfold clamp32.
  case Rlt_bool_spec; intros H.
  - destruct (H1 H) as [H3 H4]. destruct (of32_fin _ H3) as [H5 H6].
    unfold rnd32. rewrite key_fin by easy. now rewrite H6.
  - unfold rnd32. rewrite H2 by easy. simpl.
    assert (Hb : 0 < big32) by apply bpow_gt_0.
    assert (Hn : r32 (B2R x) <> 0). { intros E. rewrite E, Rabs_R0 in H. lra. }
    destruct (Rlt_bool_spec (B2R x) 0) as [A|A]; destruct (Rlt_bool_spec (r32 (B2R x)) 0) as [B|B]; auto; exfalso.
    + assert (A' := r32_mono (B2R x) 0). rewrite r32_0 in A'. lra.
    + assert (A' := r32_mono 0 (B2R x)). rewrite r32_0 in A'. lra.
Qed.

Lemma rnd32_mono : forall x y, fleb x y = true -> fleb (rnd32 x) (rnd32 y) = true.
Proof.
  intros x y H. apply fleb_spec in H. destruct H as (Hx & Hy & H). apply fleb_spec.
  rewrite !rnd32_nan. repeat split; auto.
  assert (Hb : 0 < big32) by apply bpow_gt_0.
  assert (Hbb : big32 < big) by (apply bpow_lt; lia).
  assert (L : forall z, - big <= key (rnd32 z) <= big) by (intros; apply key_bound).
  destruct (isfin_cases x Hx) as [Fx|[->| ->]].
  - destruct (isfin_cases y Hy) as [Fy|[->| ->]].
    + rewrite !rnd32_key by easy. apply clamp32_mono.
      apply r32_mono. rewrite !key_fin in H by easy. lra.
    + apply (L x).
    + exfalso. generalize (fin_bound x). rewrite key_fin in H by easy. simpl in H. lra.
  - destruct (isfin_cases y Hy) as [Fy|[->| ->]].
    + exfalso. generalize (fin_bound y). rewrite (key_fin y) in H by easy. simpl in H. lra.
    + simpl. lra.
    + exfalso. simpl in H. lra.
  - apply (L y).
Qed.

Lemma r32_idem : forall r, r32 (r32 r) = r32 r.
Proof. intros. unfold r32. apply round_generic; auto with typeclass_instances.
  apply generic_format_round; auto with typeclass_instances. apply fexp_correct; reflexivity. Qed.

Lemma rnd32_idem_key : forall x, key (rnd32 (rnd32 x)) = key (rnd32 x).
Proof.
  intros x. destruct (isfin x) eqn:F.
  - destruct (to32_fin x F) as [H1 H2].
    destruct (Rlt_or_le (Rabs (r32 (B2R x))) big32) as [H|H].
    + destruct (H1 H) as [H3 H4]. destruct (of32_fin _ H3) as [H5 H6].
      change (of32 (to32 x)) with (rnd32 x) in *.
      rewrite rnd32_key by easy. rewrite H6, H4, r32_idem. unfold clamp32. rewrite Rlt_bool_true by easy.
      rewrite key_fin by easy. congruence.
    + unfold rnd32. rewrite H2 by easy. easy.
  - now destruct x.
Qed.
