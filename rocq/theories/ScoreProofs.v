(** Float facts about the improvement score *)
From Coq Require Import List Bool Arith ZArith Reals Lia Lra.
From Flocq Require Import Core BinarySingleNaN.
From Verif Require Import Flt FltMore Py SampFloat FManModel RunModel.
Import ListNotations.
#[local] Arguments fadd : simpl never.
#[local] Arguments fsub : simpl never.
#[local] Arguments fmul : simpl never.
#[local] Arguments fdiv : simpl never.
#[local] Arguments fltb : simpl never.
#[local] Arguments feqb : simpl never.
#[local] Arguments fofZ : simpl never.
#[local] Arguments flit : simpl never.

Lemma feqb_eq : forall x y, feqb x y = true -> feqb x fzero = false -> x = y.
Proof.
  intros x y E N. apply feqb_spec in E. destruct E as (A & B & C). apply key_inj; auto.
  intros Z. assert (feqb x fzero = true); [|congruence]. apply feqb_spec. rewrite key_fzero. auto.
Qed.
Section S.
Variable npsin : f64 -> f64.
Notation replacement := (replacement npsin).
Notation rcalls := (rcalls npsin).
Notation inquire := (inquire npsin).

(** the ratings since the last inquiry; None: no inquiry yet *)
Definition since_step (acc : option (list Z)) (c : rcall) : option (list Z) :=
  match c with
  | CRir r => match acc with None => None | Some l => Some (l ++ [r]) end
  | CInq _ => Some []
  | CSqs x => if feqb x fzero then Some [] else acc
  end.
Definition since_inquiry (cs : list rcall) : option (list Z) := fold_left since_step cs None.
(** adding up in python *)
Definition fsum (l : list Z) : f64 := fold_left (fun x r => fadd x (addition r)) l fzero.

Lemma fsum_snoc : forall l r, fsum (l ++ [r]) = fadd (fsum l) (addition r).
Proof. intros. unfold fsum. now rewrite fold_left_app. Qed.
Lemma rcalls_snoc : forall cs s c, rcalls s (cs ++ [c]) = fst (replacement (rcalls s cs) c).
Proof. induction cs as [|a cs IH]; intros s c; simpl; auto. Qed.
Lemma rscore_spec : forall cs q, rscore (rcalls (mkScore None q) cs) = option_map fsum (since_inquiry cs).
Proof.
  intros cs q. induction cs as [|c cs IH] using rev_ind; auto.
  rewrite rcalls_snoc. unfold since_inquiry in *. rewrite fold_left_app. simpl. set (s := rcalls _ cs) in *.
  set (a := fold_left since_step cs None) in *. destruct c as [r|x|u]; unfold since_step; cbn [RunModel.replacement].
  - rewrite IH. destruct a; simpl; auto. now rewrite fsum_snoc.
  - destruct (feqb x fzero) eqn:E; [|exact IH]. unfold RunModel.inquire. destruct (rscore s); reflexivity.
  - unfold RunModel.inquire. destruct (rscore s); reflexivity.
Qed.

Local Open Scope R_scope.
Lemma h_half_val : isfin h_half = true /\ B2R h_half = / 2.
Proof. destruct (flit_val 1 (-1)) as [F V]; try lia. split; auto. unfold h_half. rewrite V. simpl. lra. Qed.
Lemma b53 : b2 53 < big.
Proof. apply bpow_lt. lia. Qed.
Lemma half_exact : forall z, (Z.abs z < 2^53)%Z -> generic_format radix2 fexp64 (IZR z * b2 (-1)) /\ - big < IZR z * b2 (-1) < big.
Proof.
  intros z H. split; [apply fmt_mul; lia|]. assert (B := b53). change (b2 (-1)) with (/ 2).
  assert (- IZR (2^53) <= IZR z <= IZR (2^53)) by (split; [rewrite <- opp_IZR|]; apply IZR_le; lia).
  change (IZR (2^53)) with (b2 53) in H0. lra.
Qed.
Lemma addition_val : forall r, (1 <= r < 2^51)%Z -> isfin (addition r) = true /\ B2R (addition r) = IZR (2 * r - 1) * b2 (-1).
Proof.
  intros r H. unfold addition. destruct (r =? 0)%Z eqn:E; [apply Z.eqb_eq in E; lia|].
  destruct (fofZ_val r) as [Fr Vr]; [lia|]. destruct h_half_val as [Fh Vh].
  destruct (fsub_key (fofZ r) h_half Fr Fh) as [N K]. rewrite Vr, Vh in K.
  replace (IZR r - / 2) with (IZR (2 * r - 1) * b2 (-1)) in K by (change (b2 (-1)) with (/2); rewrite minus_IZR, mult_IZR; lra).
  destruct (half_exact (2 * r - 1)) as [G B]; [lia|]. rewrite crnd_fmt in K by auto. now apply val_of_key.
Qed.
(** twice the exact score of ratings of at least 1 *)
Definition twice (l : list Z) : Z := fold_right (fun r a => (2 * r - 1 + a)%Z) 0%Z l.
Lemma twice_app : forall a b, twice (a ++ b) = (twice a + twice b)%Z.
Proof. induction a as [|x a IH]; intros b; auto. simpl in *. rewrite IH. lia. Qed.
Lemma twice_pos : forall l, (forall r, In r l -> (1 <= r)%Z) -> (0 <= twice l)%Z.
Proof. induction l as [|x l IH]; intros H; [simpl; lia|]. change (twice (x :: l)) with (2 * x - 1 + twice l)%Z. assert (1 <= x)%Z by (apply H; now left). assert (0 <= twice l)%Z by (apply IH; intros; apply H; now right). lia. Qed.
Lemma fsum_exact : forall l, (forall r, In r l -> (1 <= r)%Z) -> (twice l < 2^51)%Z ->
  isfin (fsum l) = true /\ B2R (fsum l) = IZR (twice l) * b2 (-1).
Proof.
  induction l as [|r l IH] using rev_ind; intros P L.
  - split; auto. simpl. lra.
  - assert (P' : forall x, In x l -> (1 <= x)%Z) by (intros; apply P, in_or_app; auto).
    assert (Pr : (1 <= r)%Z) by (apply P, in_or_app; right; now left).
    rewrite twice_app in *. change (twice [r]) with (2 * r - 1 + 0)%Z in *. assert (0 <= twice l)%Z by now apply twice_pos.
    destruct IH as [F V]; auto; [lia|]. rewrite fsum_snoc.
    destruct (addition_val r) as [Fa Va]; [lia|]. destruct (fadd_key _ _ F Fa) as [N K]. rewrite V, Va in K.
    replace (IZR (twice l) * b2 (-1) + IZR (2 * r - 1) * b2 (-1)) with (IZR (twice l + (2 * r - 1 + 0)) * b2 (-1)) in K
      by (rewrite !plus_IZR; lra).
    destruct (half_exact (twice l + (2 * r - 1 + 0))) as [G B]; [lia|]. rewrite crnd_fmt in K by auto. now apply val_of_key.
Qed.
(** in general: at least 0.1 as soon as something was replaced *)
Lemma tenth_val : isfin tenth = true /\ 0 < B2R tenth < / 2.
Proof.
  destruct (flit_val 3602879701896397 (-55)) as [F V]; try lia. split; auto. unfold tenth. rewrite V.
  assert (P := bpow_gt_0 radix2 (-55)). split; [apply Rmult_lt_0_compat; auto; lra|].
  replace (/2) with (IZR (2^54) * b2 (-55)). apply Rmult_lt_compat_r; auto. apply IZR_lt. lia.
  change (IZR (2^54)) with (b2 54). rewrite <- bpow_plus. reflexivity.
Qed.
Lemma addition_ge : forall r, (0 <= r < 2^51)%Z -> isfin (addition r) = true /\ B2R tenth <= B2R (addition r) <= b2 51.
Proof.
  intros r H. destruct tenth_val as [Ft [T0 T1]]. assert (B1 : 1 <= b2 51) by (apply (bpow_le radix2 0 51); lia).
  destruct (Z.eq_dec r 0) as [->|Nr]. { change (addition 0) with tenth. split; auto. lra. }
  destruct (addition_val r) as [F V]; [lia|]. split; auto. rewrite V. change (b2 (-1)) with (/2).
  assert (1 <= IZR (2 * r - 1) <= IZR (2^52)) by (split; apply IZR_le; lia). change (IZR (2^52)) with (b2 52) in H0.
  assert (b2 52 = 2 * b2 51). { change 52%Z with (1 + 51)%Z. rewrite bpow_plus. reflexivity. } lra.
Qed.
Lemma fsum_ge : forall l, (forall r, In r l -> (0 <= r < 2^51)%Z) ->
  isnan (fsum l) = false /\ 0 <= key (fsum l) /\ (l <> [] -> B2R tenth <= key (fsum l)).
Proof.
  destruct tenth_val as [Ft [T0 T1]].
  induction l as [|r l IH] using rev_ind; intros P.
  - split; auto. split; [simpl; lra|easy].
  - assert (P' : forall x, In x l -> (0 <= x < 2^51)%Z) by (intros; apply P, in_or_app; auto).
    destruct (IH P') as (N & G & _). rewrite fsum_snoc.
    destruct (addition_ge r) as [Fa [A1 A2]]; [apply P, in_or_app; right; now left|].
    destruct (isfin (fsum l)) eqn:F.
    + destruct (fadd_key _ _ F Fa) as [N' K']. rewrite (key_fin _ F) in G.
      assert (X : B2R tenth <= key (fadd (fsum l) (addition r))).
      { rewrite K', <- (crnd_B2R tenth). apply crnd_mono. lra. }
      split; auto. split; auto. lra.
    + destruct (isfin_cases _ N) as [X|[X|X]]; [congruence| |].
      * rewrite X. assert (Y : fadd finf (addition r) = finf) by (destruct (addition r); try easy; reflexivity).
        rewrite Y. split; auto. change (key finf) with big. assert (X2 := big_4). split; [|intros _]; lra.
      * rewrite X in G. change (key fninf) with (- big) in G. exfalso. assert (X2 := big_4). lra.
Qed.

(** a quotient above 1 *)
Lemma quotient_gt1 : forall a b, isfin b = true -> fltb fzero b = true -> fltb b a = true -> fltb fone (fdiv a b) = true.
Proof.
  intros a b Fb Pb Lt. apply fltb_spec in Pb. destruct Pb as (_ & Nb & Pb). rewrite key_fzero, (key_fin _ Fb) in Pb.
  apply fltb_spec in Lt. destruct Lt as (_ & Na & Lt). rewrite (key_fin _ Fb) in Lt.
  destruct (isfin a) eqn:Fa.
  - rewrite (key_fin _ Fa) in Lt. destruct (fdiv_key a b Fa Fb) as [N K]; [lra|]. apply fltb_spec. split; [reflexivity|]. split; auto.
    rewrite key_fone, K.
    assert (Q : 1 + b2 (-53) < B2R a / B2R b).
    { assert (G : generic_format radix2 fexp64 (B2R b)) by apply generic_format_B2R.
      assert (S1 : succ radix2 fexp64 (B2R b) <= B2R a) by (apply succ_le_lt; auto with typeclass_instances; apply generic_format_B2R).
      rewrite succ_eq_pos in S1 by lra.
      assert (U : B2R b * b2 (-53) < ulp radix2 fexp64 (B2R b)).
      { rewrite ulp_neq_0 by lra. unfold cexp. apply Rlt_le_trans with (b2 (mag radix2 (B2R b)) * b2 (-53)).
        - apply Rmult_lt_compat_r; [apply bpow_gt_0|]. rewrite <- (Rabs_pos_eq (B2R b)) at 1 by lra. apply bpow_mag_gt.
        - rewrite <- bpow_plus. apply bpow_le. unfold SpecFloat.fexp. lia. }
      apply Rmult_lt_reg_r with (B2R b); auto. unfold Rdiv. rewrite Rmult_assoc, Rinv_l by lra. lra. }
    (* the successor of 1 is a float below or at the rounded quotient *)
    assert (R : 1 < rnd (B2R a / B2R b)).
    { apply Rlt_le_trans with (1 + b2 (-52)). { generalize (bpow_gt_0 radix2 (-52)). lra. }
      assert (E52 : b2 (-52) = 2 * b2 (-53)). { change (-52)%Z with (1 + -53)%Z. rewrite bpow_plus. reflexivity. }
      assert (G2 : generic_format radix2 fexp64 (1 + b2 (-52))).
      { replace (1 + b2 (-52)) with (IZR (2^52 + 1) * b2 (-52)). apply fmt_mul; lia.
        rewrite plus_IZR. change (IZR (2^52)) with (b2 52). rewrite Rmult_plus_distr_r, <- bpow_plus. simpl (b2 (52 + -52)). lra. }
      assert (G1 : generic_format radix2 fexp64 1). { replace 1 with (IZR 1 * b2 0) by (simpl; lra). apply fmt_mul; lia. }
      apply round_N_ge_midp; auto with typeclass_instances.
      replace (pred radix2 fexp64 (1 + b2 (-52))) with 1; [lra|].
      replace (1 + b2 (-52)) with (succ radix2 fexp64 1). { rewrite pred_succ; auto with typeclass_instances. }
      rewrite succ_eq_pos by lra. f_equal. rewrite ulp_neq_0 by lra. unfold cexp. rewrite (mag_unique_pos radix2 1 1); [reflexivity|simpl; lra]. }
    unfold crnd, clamp. apply Rlt_le_trans with (Rmin big (rnd (B2R a / B2R b))); [|apply Rmax_r].
    apply Rmin_glb_lt; auto. generalize big_4; lra.
  - destruct (isfin_cases _ Na) as [X|[X|X]]; [congruence| |].
    + subst a. destruct (pos_finite b Fb Pb) as (m & e & H & ->). reflexivity.
    + subst a. change (key fninf) with (- big) in Lt. exfalso. generalize big_4 (fin_bound b). lra.
Qed.
End S.

(** ** the probability as a real function *)
Local Open Scope R_scope.
Definition real_prob (x : R) : R := / 2 + / 2 * sin (PI * (x - / 2)).
Lemma real_prob_0 : real_prob 0 = 0.
Proof.
  unfold real_prob. replace (PI * (0 - / 2)) with (- (PI / 2)) by field. rewrite sin_neg, sin_PI2. lra.
Qed.
Lemma real_prob_1 : real_prob 1 = 1.
Proof. unfold real_prob. replace (PI * (1 - / 2)) with (PI / 2) by field. rewrite sin_PI2. lra. Qed.
Lemma real_prob_mono : forall x y, 0 <= x -> x < y -> y <= 1 -> real_prob x < real_prob y.
Proof.
  intros x y H0 H H1. unfold real_prob. assert (P := PI_RGT_0).
  assert (sin (PI * (x - / 2)) < sin (PI * (y - / 2))); [|lra].
  apply sin_increasing_1; try nra.
Qed.
