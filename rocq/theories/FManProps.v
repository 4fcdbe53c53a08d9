(** * Properties C17-C19: the mutation coefficient manager *)
From Coq Require Import List Bool ZArith Reals Lia Lra.
From Flocq Require Import Core BinarySingleNaN.
From Verif Require Import Flt FltMore Py FManModel FManProofs.
Import ListNotations.

(** ** Specification vocabulary *)
(** the two ends of an F setting, a single value being both *)
Definition lowF (F : Fval) : f64 := match F with FSingle f => f | FPair lo _ => lo end.
Definition highF (F : Fval) : f64 := match F with FSingle f => f | FPair _ hi => hi end.
(** a legitimate F argument: finite, not negative, ordered, and the lower end of
    a range not zero (the documented request for the critical value) *)
Definition good_F (F : Fval) : Prop :=
  isfin (lowF F) = true /\ isfin (highF F) = true /\ fleb fzero (lowF F) = true /\
  fleb (lowF F) (highF F) = true /\
  match F with FPair lo _ => feqb lo fzero = false | FSingle _ => True end.
(** CR in [0,1] (enforced by DifferentialEvolution), Np a positive int *)
Definition good_CR_Np (CR : f64) (Np : Z) : Prop :=
  fleb fzero CR = true /\ fleb CR fone = true /\ (1 <= Np < 2^53)%Z.
(** what pow() may return for 0.89**-0.88 (about 1.108) and 0.87**-0.88 (about
    1.130): anything in (17/16, 2] and (9/8, 2] *)
Definition good_pow (up0 up1 : f64) : Prop :=
  (fltb (flit 17 (-4)) up0 = true /\ fleb up0 (fofZ 2) = true) /\
  (fltb (flit 9 (-3)) up1 = true /\ fleb up1 (fofZ 2) = true).

Lemma good_okF : forall F, good_F F -> okF F /\ zeroF F = false.
Proof.
  intros F (A & B & C & D & E). apply fleb_spec in C, D. rewrite key_fzero in C.
  destruct C as (_ & _ & C). destruct D as (_ & _ & D). rewrite !key_fin in * by easy.
  destruct F as [f|lo hi]; simpl in *; split; auto; unfold nn; repeat split; auto; lra.
Qed.
Section From.
Variables (F : Fval) (CR : f64) (Np : Z) (ad : bool) (up0 up1 : f64).
Hypotheses (HF : good_F F) (HC : good_CR_Np CR Np) (HU : good_pow up0 up1).
Lemma inv_from : forall ops, FInv (fm_run up0 up1 (fm_init F CR Np ad) ops) /\ LInv (fm_run up0 up1 (fm_init F CR Np ad) ops).
Proof.
  intros ops. destruct (good_okF F HF) as [A B]. destruct HC as (C & D & E).
  assert (I := FInv_init F CR Np ad A B C D E).
  split; [now apply FInv_run; destruct HU|apply LInv_run; try apply HU; auto; apply LInv_init].
Qed.
Lemma init_F : fm_F (fm_init F CR Np ad) = F /\ fm_origL (fm_init F CR Np ad) = lowF F /\
  fm_origH (fm_init F CR Np ad) = highF F /\ fm_adaptive (fm_init F CR Np ad) = ad /\
  fm_crit (fm_init F CR Np ad) = criticalF CR Np.
Proof. destruct (good_okF F HF) as [_ B]. unfold fm_init. destruct F as [f|lo hi]; simpl in *; rewrite ?B; auto. Qed.
Lemma from_const : forall ops, let s := fm_run up0 up1 (fm_init F CR Np ad) ops in
  fm_origL s = lowF F /\ fm_origH s = highF F /\ fm_adaptive s = ad /\ fm_crit s = criticalF CR Np.
Proof.
  intros ops s. destruct (run_const up0 up1 ops (fm_init F CR Np ad)) as (A & B & C & D).
  destruct init_F as (E & G & H & I & J). unfold s. rewrite A, B, C, D, G, H, I, J. auto.
Qed.
Lemma fleb_nn : forall x y, nn x -> nn y -> (B2R x <= B2R y)%R -> fleb x y = true.
Proof. intros x y Hx Hy H. apply fleb_spec. rewrite !nn_key by easy. auto using nn_nan. Qed.
End From.

(** ** C17 *)
(** Whatever the calls of up() and down(), the two ends never exceed the original
    ones, a non-adaptive manager never changes, and get() lies between the
    current ends, so never exceeds the original upper end. *)
Theorem C17_F_within_original : forall F CR Np ad up0 up1 (ops : list fmop) (u : f64),
  good_F F -> good_CR_Np CR Np -> good_pow up0 up1 -> unit_draw u ->
  let s := fm_run up0 up1 (fm_init F CR Np ad) ops in
  fleb (lowF (fm_F s)) (lowF F) = true /\ fleb (highF (fm_F s)) (highF F) = true /\
  fleb fzero (lowF (fm_F s)) = true /\
  (ad = false -> fm_F s = F) /\
  fleb (lowF (fm_F s)) (fm_get u s) = true /\ fleb (fm_get u s) (highF (fm_F s)) = true /\
  fleb (fm_get u s) (highF F) = true.
Proof.
  intros F CR Np ad up0 up1 ops u HF HC HU Hu s.
  destruct (inv_from F CR Np ad up0 up1 HF HC HU ops) as [I _]. fold s in I.
  destruct (from_const F CR Np ad up0 up1 HF ops) as (OL & OH & OA & OC). fold s in OL, OH, OA, OC.
  destruct (get_range s u I Hu) as [G1 G2].
  unfold FInv in I. rewrite OL, OH in I. destruct I as (_ & _ & NL & NH & _ & L & H & A & B & C & _).
  change (lowF (fm_F s)) with (fm_lowest s). change (highF (fm_F s)) with (fm_highest s).
  assert (Z : nn fzero) by (split; [reflexivity|simpl; lra]).
  split; [apply fleb_nn; auto|]. split; [apply fleb_nn; auto|].
  split; [apply fleb_nn; auto; simpl; apply L|].
  split; [intros ->; unfold s; rewrite nonadaptive_const; [now apply init_F|now apply init_F]|].
  repeat split; apply fleb_nn; auto; lra.
Qed.
Print Assumptions C17_F_within_original.

Definition ex_F : Fval := FPair (flit 1 (-1)) fone.
Definition ex_CR : f64 := flit 6755399441055744 (-53).
Lemma ex_F_good : good_F ex_F. Proof. repeat split. Qed.
Lemma ex_CR_good : good_CR_Np ex_CR 100. Proof. split; [reflexivity|split; [reflexivity|lia]]. Qed.
Lemma ex_pow_good : good_pow c_up89 c_up87. Proof. repeat split. Qed.
(** (0.5, 1) after three down() calls: lower end 0.3524845, upper end 1 *)
Example C17_nonvacuous :
  let s := fm_run c_up89 c_up87 (fm_init ex_F ex_CR 100 true) [Down; Down; Down] in
  good_F ex_F /\ good_CR_Np ex_CR 100 /\ good_pow c_up89 c_up87 /\ unit_draw (flit 1 (-2)) /\
  fltb (fm_lowest s) (lowF ex_F) = true /\ feqb (fm_highest s) (highF ex_F) = true /\
  fltb (fm_lowest s) (fm_get (flit 1 (-2)) s) = true.
Proof.
  cbv zeta. split; [exact ex_F_good|]. split; [exact ex_CR_good|]. split; [exact ex_pow_good|].
  split; [now split|]. split; [vm_compute; reflexivity|]. split; vm_compute; reflexivity.
Qed.

(** A lower end of zero asks for the critical value: then F never changes, and
    get() stays in [criticalF, upper] provided criticalF <= upper *)
Theorem C17_zero_lower_end : forall hi CR Np ad up0 up1 (ops : list fmop) (u : f64),
  isfin hi = true -> good_CR_Np CR Np -> unit_draw u ->
  let cF := fsqrt (fdiv (fsub fone (fmul (flit 1 (-1)) CR)) (fofZ Np)) in
  let s := fm_run up0 up1 (fm_init (FPair fzero hi) CR Np ad) ops in
  fm_F s = FPair cF hi /\ fm_limited s = false /\
  (fleb cF hi = true -> fleb cF (fm_get u s) = true /\ fleb (fm_get u s) hi = true).
Proof.
  intros hi CR Np ad up0 up1 ops u Hh (C0 & C1 & HN) Hu cF s.
  assert (E : s = mkFman cF (FPair cF hi) false cF hi false).
  { unfold s. rewrite nonadaptive_const; reflexivity. }
  rewrite E. simpl fm_F. split; [reflexivity|]. split; [reflexivity|]. intros L.
  destruct (criticalF_val CR Np C0 C1 HN) as [[Nf N0] _]. fold cF in Nf, N0.
  change (criticalF CR Np) with cF in Nf, N0.
  apply fleb_spec in L. destruct L as (_ & _ & L). rewrite !key_fin in L by easy.
  unfold fm_get; simpl fm_F. cbv iota.
  destruct (fsub_key hi cF Hh Nf) as [N K].
  assert (D : isfin (fsub hi cF) = true).
  { apply fin_key; auto. rewrite K.
    assert (crnd (B2R hi - B2R cF) <= crnd (B2R hi))%R by (apply crnd_mono; lra). rewrite crnd_B2R in H.
    assert (0 <= crnd (B2R hi - B2R cF))%R by (apply crnd_ge0; lra). generalize (fin_bound hi) big_pos. lra. }
  destruct (funiform_range cF hi u Nf Hh D L Hu) as [A B].
  rewrite !fleb_spec. rewrite !key_fin by easy. repeat split; try apply nan_fin; auto; lra.
Qed.
Print Assumptions C17_zero_lower_end.
Example C17_zero_nonvacuous : good_CR_Np ex_CR 100 /\ unit_draw (flit 1 (-2)) /\
  fleb (fsqrt (fdiv (fsub fone (fmul (flit 1 (-1)) ex_CR)) (fofZ 100))) fone = true.
Proof. split; [exact ex_CR_good|]. split; [now split|vm_compute; reflexivity]. Qed.
(** the proviso is needed: F=(0, 0.1), CR=0, Np=20 always draws above 0.1 *)
Theorem C17_zero_lower_end_refuted :
  exists hi CR Np u, good_CR_Np CR Np /\ unit_draw u /\ isfin hi = true /\
  fltb hi (fm_get u (fm_init (FPair fzero hi) CR Np true)) = true.
Proof.
  exists (flit 7205759403792794 (-56)), fzero, 20%Z, (flit 1 (-2)). split; [split; [reflexivity|split; [reflexivity|lia]]|]. split; [now split|]. split; vm_compute; reflexivity.
Qed.

(** ** C18 *)
Theorem C18_F_ordered_above_critical : forall F CR Np ad up0 up1 (ops : list fmop),
  good_F F -> good_CR_Np CR Np -> good_pow up0 up1 ->
  let cF := fsqrt (fdiv (fsub fone (fmul (flit 1 (-1)) CR)) (fofZ Np)) in
  let s := fm_run up0 up1 (fm_init F CR Np ad) ops in
  fleb (lowF (fm_F s)) (highF (fm_F s)) = true /\
  (lowF (fm_F s) = lowF F \/ fltb cF (lowF (fm_F s)) = true) /\
  match F, fm_F s with
  | FSingle _, FSingle _ => True
  | FPair _ hi0, FPair lo hi => hi = hi0 \/ fltb (fmul (fofZ 3) lo) hi = true
  | _, _ => False
  end.
Proof.
  intros F CR Np ad up0 up1 ops HF HC HU cF s.
  destruct (inv_from F CR Np ad up0 up1 HF HC HU ops) as [I _]. fold s in I.
  destruct (from_const F CR Np ad up0 up1 HF ops) as (OL & OH & OA & OC). fold s in OL, OH, OA, OC.
  assert (KD : match F, fm_F s with FSingle _, FSingle _ => True | FPair _ _, FPair _ _ => True | _, _ => False end).
  { unfold s. clear I OL OH OA OC s. destruct (init_F F CR Np ad HF) as (E & _).
    assert (G : forall ops s, match fm_F s, fm_F (fm_run up0 up1 s ops) with FSingle _, FSingle _ => True | FPair _ _, FPair _ _ => True | _, _ => False end).
    { clear. induction ops as [|o ops IH]; intros s; simpl; [destruct (fm_F s); auto|].
      specialize (IH (fm_step up0 up1 s o)).
      assert (S : match fm_F s, fm_F (fm_step up0 up1 s o) with FSingle _, FSingle _ => True | FPair _ _, FPair _ _ => True | _, _ => False end).
      { destruct s as [cr F ad oL oH li], o; unfold fm_step, fm_up, fm_down, set_lowest, set_highest, set_limited; cbn [fm_F fm_adaptive fm_origL fm_origH fm_limited fm_crit];
          destruct ad, F; cbn [negb fm_F];
          repeat (match goal with |- context [if ?b then _ else _] => match type of b with bool => destruct b end end; cbn [fm_F negb]; auto); auto. }
      destruct (fm_F s), (fm_F (fm_step up0 up1 s o)), (fm_F (fm_run up0 up1 (fm_step up0 up1 s o) ops)); tauto. }
    specialize (G ops (fm_init F CR Np ad)). now rewrite E in G. }
  unfold FInv in I. rewrite OL, OH, OC in I.
  destruct I as (C1 & _ & NL & NH & _ & L & H & A & B & C & D & P).
  change (lowF (fm_F s)) with (fm_lowest s). change (highF (fm_F s)) with (fm_highest s).
  split; [now apply fleb_nn|]. split.
  - destruct D as [D|D]; [now left|right]. now apply fltb_nn.
  - unfold fm_lowest, fm_highest in *.
    destruct F as [f|lo0 hi0]; destruct (fm_F s) as [f'|lo hi]; try tauto.
    destruct P as [[P|P] _]; [now left|right]. apply fltb_spec. rewrite (nn_key hi H).
    split; [apply triple_ge; auto|]. split; [now apply nn_nan|auto].
Qed.
Print Assumptions C18_F_ordered_above_critical.
(** (0.5, 1), CR=0.75, Np=100: after 20 down() calls the lower end is stuck just
    above the critical value 0.079 and the upper end has started to shrink *)
Example C18_nonvacuous :
  let s := fm_run c_up89 c_up87 (fm_init ex_F ex_CR 100 true) (repeat Down 20) in
  good_F ex_F /\ good_CR_Np ex_CR 100 /\ good_pow c_up89 c_up87 /\
  fltb (fm_lowest s) (flit 1 (-3)) = true /\ fltb (fm_highest s) fone = true /\ fm_limited s = false.
Proof.
  cbv zeta. split; [exact ex_F_good|]. split; [exact ex_CR_good|]. split; [exact ex_pow_good|].
  split; [vm_compute; reflexivity|]. split; vm_compute; reflexivity.
Qed.

(** ** C19 *)
(** [limited] tells exactly whether the last call was a down() without effect
    (none of it when not adaptive); every up() clears it *)
Theorem C19_limited_exact : forall F CR Np ad up0 up1 (ops : list fmop),
  good_F F -> good_CR_Np CR Np -> good_pow up0 up1 ->
  let s := fm_run up0 up1 (fm_init F CR Np ad) ops in
  let after_down := fm_run up0 up1 (fm_init F CR Np ad) (ops ++ [Down]) in
  let after_up := fm_run up0 up1 (fm_init F CR Np ad) (ops ++ [Up]) in
  (ad = true -> (fm_limited after_down = true <-> fm_F after_down = fm_F s)) /\
  fm_limited after_up = false /\
  (ad = false -> fm_limited s = false) /\
  (ops = [] -> fm_limited s = false).
Proof.
  intros F CR Np ad up0 up1 ops HF HC HU s sd su.
  destruct (inv_from F CR Np ad up0 up1 HF HC HU ops) as [I J]. fold s in I, J.
  destruct (from_const F CR Np ad up0 up1 HF ops) as (OL & OH & OA & OC). fold s in OL, OH, OA, OC.
  assert (E : sd = fm_down s) by (unfold sd; rewrite run_app; reflexivity).
  assert (E' : su = fm_up up0 up1 s) by (unfold su; rewrite run_app; reflexivity).
  assert (N : ad = false -> fm_limited s = false).
  { intros ->. apply not_true_iff_false. intros X. destruct (J X) as [Y _]. congruence. }
  rewrite E, E'. split; [intros ->; now apply limited_iff|]. split.
  - destruct ad; [now apply up_clears|]. unfold fm_up. rewrite OA. now apply N.
  - split; auto. intros ->. unfold s; simpl. unfold fm_init. destruct F as [f|lo hi]; auto. now destruct (feqb lo fzero).
Qed.
Print Assumptions C19_limited_exact.

(** from every reachable state: enough consecutive down() calls set it for good,
    enough consecutive up() calls restore exactly the original F *)
Theorem C19_bottoms_out_and_recovers : forall F CR Np up0 up1 (ops : list fmop),
  good_F F -> good_CR_Np CR Np -> good_pow up0 up1 ->
  (exists n, forall m, (n <= m)%nat -> fm_limited (fm_run up0 up1 (fm_init F CR Np true) (ops ++ repeat Down m)) = true) /\
  (exists n, forall m, (n <= m)%nat -> fm_F (fm_run up0 up1 (fm_init F CR Np true) (ops ++ repeat Up m)) = F).
Proof.
  intros F CR Np up0 up1 ops HF HC HU.
  destruct (inv_from F CR Np true up0 up1 HF HC HU ops) as [I J].
  destruct (from_const F CR Np true up0 up1 HF ops) as (OL & OH & OA & OC).
  destruct HU as [U0 U1].
  destruct (down_terminates up0 up1 _ I J OA) as [n Hn].
  destruct (up_terminates up0 up1 U0 U1 _ I OA) as [n' Hn'].
  split; [exists n|exists n']; intros m Hm; rewrite run_app; auto.
  rewrite Hn' by auto. unfold origF. rewrite OL, OH.
  generalize (C18_F_ordered_above_critical F CR Np true up0 up1 ops HF HC (conj U0 U1)).
  intros (_ & _ & K). destruct F as [f|lo hi]; destruct (fm_F (fm_run _ _ _ _)); try tauto; auto.
Qed.
Print Assumptions C19_bottoms_out_and_recovers.
Example C19_nonvacuous :
  let i := fm_init ex_F ex_CR 100 true in
  fm_limited (fm_run c_up89 c_up87 i (repeat Down 23)) = false /\
  fm_limited (fm_run c_up89 c_up87 i (repeat Down 30)) = true /\
  feqb (fm_lowest (fm_run c_up89 c_up87 i (repeat Down 30 ++ repeat Up 40))) (flit 1 (-1)) = true /\
  feqb (fm_highest (fm_run c_up89 c_up87 i (repeat Down 30 ++ repeat Up 40))) fone = true.
Proof.
  cbv zeta. repeat (split; [vm_compute; reflexivity|]). vm_compute; reflexivity.
Qed.

(** ** the factors themselves *)
Local Open Scope R_scope.
Lemma pow_lt_pow : forall n x y, 0 <= x -> x < y -> x ^ S n < y ^ S n.
Proof. induction n as [|n IH]; intros x y X L; [simpl; lra|]. rewrite <- !(tech_pow_Rmult _ (S n)). apply Rmult_le_0_lt_compat; auto. apply pow_le; auto. Qed.
Lemma root_le : forall (b t s : Z) (y : R), (0 <= b)%Z -> (0 < t)%Z -> (0 < s)%Z -> 0 < y -> y ^ 25 * (IZR s / 100) ^ 22 = 1 ->
  ((b ^ 25 * s ^ 22 <= t ^ 25 * 100 ^ 22)%Z -> IZR b / IZR t <= y) /\ ((t ^ 25 * 100 ^ 22 <= b ^ 25 * s ^ 22)%Z -> y <= IZR b / IZR t).
Proof.
  intros b t s y Hb Ht Hs Y0 Y.
  assert (T : 0 < IZR t) by now apply IZR_lt. assert (S0 : 0 < IZR s) by now apply IZR_lt.
  assert (B0 : 0 <= IZR b) by now apply IZR_le.
  assert (Q0 : 0 < (IZR s / 100) ^ 22) by (apply pow_lt; lra).
  assert (I : 0 < / IZR t) by now apply Rinv_0_lt_compat.
  assert (B1 : 0 <= IZR b / IZR t) by (apply Rmult_le_pos; lra).
  assert (P : (IZR b / IZR t) ^ 25 * (IZR s / 100) ^ 22 * (IZR t ^ 25 * 100 ^ 22) = IZR b ^ 25 * IZR s ^ 22).
  { unfold Rdiv. rewrite !Rpow_mult_distr, !pow_inv. field. lra. }
  assert (M : 0 < IZR t ^ 25 * 100 ^ 22) by (apply Rmult_lt_0_compat; apply pow_lt; lra).
  assert (C : forall z, 0 <= z -> z ^ 25 * (IZR s / 100) ^ 22 * (IZR t ^ 25 * 100 ^ 22) = z ^ 25 * ((IZR s / 100) ^ 22 * (IZR t ^ 25 * 100 ^ 22))) by (intros; apply Rmult_assoc).
  assert (K : 0 < (IZR s / 100) ^ 22 * (IZR t ^ 25 * 100 ^ 22)) by now apply Rmult_lt_0_compat.
  assert (E : forall u v : Z, IZR (u ^ 25 * v ^ 22) = IZR u ^ 25 * IZR v ^ 22).
  { intros u v. rewrite mult_IZR. change 25%Z with (Z.of_nat 25). change 22%Z with (Z.of_nat 22). now rewrite <- !pow_IZR. }
  split; intros H; apply IZR_le in H; rewrite !E in H; apply Rnot_lt_le; intros N.
  - assert (N2 := pow_lt_pow 24 _ _ (Rlt_le _ _ Y0) N). apply (Rmult_lt_compat_r _ _ _ K) in N2. rewrite <- !C, P, Y in N2 by lra.
    revert N2 H. clear. intros. lra.
  - assert (N2 := pow_lt_pow 24 _ _ B1 N). apply (Rmult_lt_compat_r _ _ _ K) in N2. rewrite <- !C, P, Y in N2 by lra.
    revert N2 H. clear. intros. lra.
Qed.

Lemma near_pow : forall a s : Z, (1 <= a)%Z -> (0 < s)%Z ->
  ((2 * a - 1) ^ 25 * s ^ 22 <= (2 ^ 53) ^ 25 * 100 ^ 22)%Z -> ((2 ^ 53) ^ 25 * 100 ^ 22 <= (2 * a + 1) ^ 25 * s ^ 22)%Z ->
  Rabs (IZR a * bpow radix2 (-52) - Rpower (IZR s / 100) (- (88 / 100))) <= bpow radix2 (-53).
Proof.
  intros a s Ha Hs. assert (G1 : (0 <= 2 * a - 1)%Z) by lia. assert (G2 : (0 <= 2 * a + 1)%Z) by lia. assert (G3 : (0 < 2 ^ 53)%Z) by reflexivity.
  set (y := Rpower (IZR s / 100) (- (88 / 100))).
  assert (S0 : 0 < IZR s) by now apply IZR_lt.
  assert (Y0 : 0 < y) by apply exp_pos.
  assert (Y : y ^ 25 * (IZR s / 100) ^ 22 = 1).
  { unfold y. rewrite <- (Rpower_pow 25) by apply exp_pos. rewrite Rpower_mult. rewrite <- (Rpower_pow 22) by lra. rewrite <- Rpower_plus.
    replace (- (88 / 100) * INR 25 + INR 22) with 0 by (simpl; lra). apply Rpower_O. lra. }
  destruct (root_le (2 * a - 1) (2 ^ 53) s y G1 G3 Hs Y0 Y) as [L1 _]. destruct (root_le (2 * a + 1) (2 ^ 53) s y G2 G3 Hs Y0 Y) as [_ U1].
  intros L U. specialize (L1 L). specialize (U1 U). clear L U Y. clearbody y.
  change (bpow radix2 (-53)) with (/ IZR (2 ^ 53)). replace (bpow radix2 (-52)) with (2 * / IZR (2 ^ 53)) by (change (bpow radix2 (-52)) with (/ IZR (2 ^ 52)); simpl (2 ^ 53)%Z; simpl (2 ^ 52)%Z; lra).
  rewrite minus_IZR, mult_IZR in L1. rewrite plus_IZR, mult_IZR in U1. unfold Rdiv in *. generalize dependent (/ IZR (2 ^ 53)). intros e L1 U1. apply Rabs_le. lra.
Qed.
(** C19: the factors FManager.up multiplies by, 0.89 and 0.87 to the power -0.88, correctly
    rounded: these are the numbers [c_up89] and [c_up87] the examples above use, and F grows *)
Theorem C19_factors :
  (isfin c_up89 = true /\ Rabs (B2R c_up89 - Rpower (89 / 100) (- (88 / 100))) <= bpow radix2 (-53)) /\
  (isfin c_up87 = true /\ Rabs (B2R c_up87 - Rpower (87 / 100) (- (88 / 100))) <= bpow radix2 (-53)) /\
  1 < B2R c_up89 < B2R c_up87.
Proof.
  unfold c_up89, c_up87. destruct (flit_val 4989954305523140%Z (-52) ltac:(lia) ltac:(lia)) as [F1 E1].
  destruct (flit_val 5090762452048121%Z (-52) ltac:(lia) ltac:(lia)) as [F2 E2]. rewrite E1, E2.
  split; [|split].
  - split; [exact F1|]. apply (near_pow _ 89); [lia|lia|vm_compute; intros C; discriminate C|vm_compute; intros C; discriminate C].
  - split; [exact F2|]. apply (near_pow _ 87); [lia|lia|vm_compute; intros C; discriminate C|vm_compute; intros C; discriminate C].
  - change (bpow radix2 (-52)) with (/ IZR (2 ^ 52)). simpl (2 ^ 52)%Z. lra.
Qed.
Print Assumptions C19_factors.
