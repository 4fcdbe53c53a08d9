(** C01-C08: parameter management, crossover, challengers.  Statements only;
    proofs in ParamProofs.v *)
From Coq Require Import String Ascii List Bool Arith ZArith Reals Lra Lia Permutation Sorted.
From Flocq Require Import Core BinarySingleNaN.
From Verif Require Import Flt FltMore Py IndivModel ParamModel ParamProofs.
Import ListNotations.
Open Scope R_scope.

(** A usable bound ([okbound]) is finite and below 2^1023 in magnitude.  For
    concrete floats this is decided by computation: *)
Lemma okbound_dec : forall b, isfin b = true -> fltb (fabs b) (flit 1 1023) = true -> okbound b.
Proof.
  intros b F H. split; auto. apply fltb_spec in H. destruct H as (_ & _ & H).
  assert (E : key (flit 1 1023) = bpow radix2 1023).
  { rewrite key_fin by reflexivity.
    transitivity (B2R (B754_finite (prec:=53) (emax:=1024) false 4503599627370496 971 eq_refl)).
    - apply f_equal. apply B2SF_inj. vm_compute. reflexivity.
    - unfold B2R, F2R. cbn [cond_Zopp Fnum Fexp].
      replace (IZR (Z.pos 4503599627370496)) with (bpow radix2 52) by reflexivity.
      rewrite <- bpow_plus. reflexivity. }
  rewrite E in H. rewrite key_fin in H by (now destruct b). unfold fabs in H. now rewrite B2R_Babs in H.
Qed.

(** C01: the result lies between the bounds *)
Theorem C01_limit_in_bounds : forall p v, okpm p -> length v = length (pm_mins p) ->
  Forall (fun x => isnan x = false) v -> inbounds p (pm_limit p v).
Proof. exact pm_limit_in. Qed.
(** C01: a value already inside is (numerically) unchanged *)
Theorem C01_inside_unchanged : forall lo hi v,
  fleb lo v = true -> fleb v hi = true -> feqb (limit1 lo hi v) v = true.
Proof. exact limit1_inside. Qed.
(** C01: an overshoot by at most the width is mirrored: the result is the
    correctly rounded exact mirror image *)
Theorem C01_mirror_low : forall lo hi v, okbound lo -> okbound hi ->
  isfin v = true -> fltb v lo = true -> 2 * B2R lo - B2R v <= B2R hi ->
  isfin (limit1 lo hi v) = true /\ B2R (limit1 lo hi v) = rnd (2 * B2R lo - B2R v).
Proof. exact limit1_mirror_low. Qed.
Theorem C01_mirror_high : forall lo hi v, okbound lo -> okbound hi -> fleb lo hi = true ->
  isfin v = true -> fltb hi v = true -> B2R lo <= 2 * B2R hi - B2R v ->
  isfin (limit1 lo hi v) = true /\ B2R (limit1 lo hi v) = rnd (2 * B2R hi - B2R v).
Proof. exact limit1_mirror_high. Qed.
(** C01: limiting twice is limiting once *)
Theorem C01_idempotent : forall lo hi v, okbound lo -> okbound hi -> fleb lo hi = true -> isnan v = false ->
  limit1 lo hi (limit1 lo hi v) = limit1 lo hi v.
Proof. exact limit1_idem. Qed.
(** C01: the whole individual is updated in place, keeping its SSE *)
Theorem C01_population_limit : forall p i, okpm p -> length (ivalues i) = length (pm_mins p) ->
  Forall (fun x => isnan x = false) (ivalues i) ->
  exists j, pop_limit p (length (pm_mins p)) i = (j, None) /\ inbounds p (ivalues j) /\ istored j = istored i.
Proof.
  intros p i H L N. assert (I := pm_limit_in p (ivalues i) H L N).
  unfold pop_limit, ind_update. rewrite (proj1 I), Nat.eqb_refl. eexists; repeat split; apply I.
Qed.

Definition ex_pm : pm := mkPM ["alpha"; "beta"]%string [fofZ (-5); fzero] [fofZ 5; fofZ 10].
Lemma ex_pm_ok : okpm ex_pm.
Proof.
  split; [reflexivity|]. intros [|[|k]] lo hi; simpl; try (destruct k; discriminate);
  intros [= <-] [= <-]; repeat split; try (apply okbound_dec; reflexivity); try reflexivity; 
  apply (okbound_dec (fofZ (-5))) || apply (okbound_dec (fofZ 5)) || apply (okbound_dec fzero) || apply (okbound_dec (fofZ 10)); reflexivity.
Qed.
Example C01_ex : okpm ex_pm /\ map B2SF (pm_limit ex_pm [fofZ (-7); finf]) = map B2SF [fofZ (-3); fzero] /\
  Forall (fun x => isnan x = false) [fofZ (-7); finf] /\
  okbound (fofZ (-5)) /\ okbound (fofZ 5) /\ fltb (fofZ (-7)) (fofZ (-5)) = true.
Proof.
  split; [apply ex_pm_ok|].
  split; [vm_compute; reflexivity|].
  repeat split; try (repeat constructor); apply okbound_dec; reflexivity.
Qed.
(** the conditions are necessary: NaN values, and bounds from 2^1023 on, escape *)
Theorem C01_nan_refuted : exists lo hi v, okbound lo /\ okbound hi /\ fleb lo hi = true /\
  fleb lo (limit1 lo hi v) = false /\ isnan v = true.
Proof.
  exists (fofZ 0), (fofZ 1), fnan. repeat split; try (apply okbound_dec; reflexivity).
Qed.
Theorem C01_huge_bounds_refuted : exists lo hi v, isfin lo = true /\ isfin hi = true /\ fleb lo hi = true /\
  isfin v = true /\ fleb lo (limit1 lo hi v) = false.
Proof. exists (flit 1 1023), (flit 3 1022), fzero. repeat split; vm_compute; reflexivity. Qed.
Print Assumptions C01_limit_in_bounds.
Print Assumptions C01_inside_unchanged.
Print Assumptions C01_mirror_low.
Print Assumptions C01_mirror_high.
Print Assumptions C01_idempotent.
Print Assumptions C01_population_limit.
Print Assumptions C01_nan_refuted.
Print Assumptions C01_huge_bounds_refuted.

(** C02: a challenger built from four individuals inside the bounds is inside
    the bounds, for every finite F, every CR (even NaN) and all draws *)
Theorem C02_challenger_in_bounds : forall p CR j u F t b a0 a1, okpm p -> isfin F = true ->
  inbounds p t -> inbounds p b -> inbounds p a0 -> inbounds p a1 ->
  inbounds p (challenger p CR j u F t b a0 a1).
Proof. exact challenger_in. Qed.
Lemma inbounds_ex : forall a b, inb (fofZ (-5)) (fofZ 5) a -> inb fzero (fofZ 10) b -> inbounds ex_pm [a; b].
Proof.
  intros a b [A1 A2] [B1 B2]. split; [reflexivity|].
  intros [|[|k]] x; simpl; try (destruct k; discriminate); intros [= <-]; eauto 8.
Qed.
Example C02_ex : inbounds ex_pm [fofZ 4; fofZ 1] /\ inbounds ex_pm [fofZ (-5); fofZ 9] /\
  map B2SF (challenger ex_pm (flit 1 (-1)) 0 (fun _ => flit 3 (-2)) (fofZ 3)
    [fofZ 4; fofZ 1] [fofZ (-5); fofZ 9] [fofZ 4; fofZ 1] [fofZ (-5); fofZ 9])
  = map B2SF [fofZ (-5); fofZ 1].
Proof.
  split; [apply inbounds_ex; split; reflexivity|]. split; [apply inbounds_ex; split; reflexivity|].
  vm_compute; reflexivity.
Qed.
(** with an infinite F the claim fails *)
Theorem C02_infinite_F_refuted : exists p CR j u F t b a0 a1, okpm p /\
  inbounds p t /\ inbounds p b /\ inbounds p a0 /\ inbounds p a1 /\ F = finf /\
  ~ inbounds p (challenger p CR j u F t b a0 a1).
Proof.
  exists ex_pm, fone, 0%nat, (fun _ => fzero), finf, [fzero; fone], [fzero; fone], [fzero; fone], [fzero; fone].
  split; [apply ex_pm_ok|].
  assert (I : inbounds ex_pm [fzero; fone]) by (apply inbounds_ex; split; reflexivity).
  repeat (split; [auto; fail|]). intros [_ C].
  destruct (C 0%nat fnan) as (lo & hi & _ & _ & A & _).
  - simpl. f_equal.
  - destruct lo; discriminate.
Qed.
Print Assumptions C02_challenger_in_bounds.
Print Assumptions C02_infinite_F_refuted.

(** C03: crossover position by position *)
Theorem C03_crossover : forall CR j u parent mutant n x y,
  nth_error parent n = Some x -> nth_error mutant n = Some y ->
  nth_error (crossover CR j u parent mutant) n =
    Some (if Nat.eqb n j then y else if fltb CR (u n) then x else y).
Proof. exact crossover_nth. Qed.
(** so the reserved position keeps the mutant's value, every position has one
    of the two values, and the parent's is taken exactly when the draw exceeds
    CR at another position *)
Theorem C03_consequences : forall CR j u parent mutant,
  length parent = length mutant ->
  length (crossover CR j u parent mutant) = length mutant /\
  nth_error (crossover CR j u parent mutant) j = nth_error mutant j /\
  (forall n, nth_error (crossover CR j u parent mutant) n = nth_error mutant n \/
             nth_error (crossover CR j u parent mutant) n = nth_error parent n) /\
  (forall n, n <> j -> fltb CR (u n) = true -> nth_error (crossover CR j u parent mutant) n = nth_error parent n) /\
  (forall n, fltb CR (u n) = false -> nth_error (crossover CR j u parent mutant) n = nth_error mutant n).
Proof.
  intros CR j u p m L.
  assert (Lc : length (crossover CR j u p m) = length m) by apply crossover_from_length.
  assert (D : forall n, (exists x y, nth_error p n = Some x /\ nth_error m n = Some y) \/
    (nth_error p n = None /\ nth_error m n = None /\ nth_error (crossover CR j u p m) n = None)).
  { intros n. destruct (nth_error p n) as [x|] eqn:E1; destruct (nth_error m n) as [y|] eqn:E2; eauto.
    - apply nth_error_None in E2. assert (n < length p)%nat by (apply nth_error_Some; congruence). lia.
    - apply nth_error_None in E1. assert (n < length m)%nat by (apply nth_error_Some; congruence). lia.
    - right. repeat split; auto. apply nth_error_None. apply nth_error_None in E2. lia. }
  split; auto. split; [|split; [|split]].
  - destruct (D j) as [(x & y & H1 & H2)|(H1 & H2 & H3)]; [|congruence].
    rewrite (crossover_nth _ _ _ _ _ _ _ _ H1 H2). now rewrite Nat.eqb_refl.
  - intros n. destruct (D n) as [(x & y & H1 & H2)|(H1 & H2 & H3)]; [|left; congruence].
    rewrite (crossover_nth _ _ _ _ _ _ _ _ H1 H2), H1, H2. destruct (Nat.eqb n j), (fltb CR (u n)); auto.
  - intros n Hn Hu. destruct (D n) as [(x & y & H1 & H2)|(H1 & H2 & H3)]; [|congruence].
    rewrite (crossover_nth _ _ _ _ _ _ _ _ H1 H2), H1, Hu. apply Nat.eqb_neq in Hn. now rewrite Hn.
  - intros n Hu. destruct (D n) as [(x & y & H1 & H2)|(H1 & H2 & H3)]; [|congruence].
    rewrite (crossover_nth _ _ _ _ _ _ _ _ H1 H2), H2, Hu. now destruct (Nat.eqb n j).
Qed.
(** with CR >= every draw (in particular CR = 1 and draws in [0,1]) the mutant
    is unchanged *)
Theorem C03_CR1 : forall CR j u parent mutant, length parent = length mutant ->
  (forall n, fleb (u n) CR = true) -> crossover CR j u parent mutant = mutant.
Proof.
  intros CR j u p m L H. apply nth_error_ext. intros n.
  apply C03_consequences; auto. apply not_true_iff_false. intros C. specialize (H n).
  apply fltb_spec in C. apply fleb_spec in H. lra.
Qed.
Example C03_ex : map B2SF (crossover (flit 1 (-1)) 1 (fun n => if Nat.eqb n 0 then fzero else fone)
   [fofZ 1; fofZ 2; fofZ 3] [fofZ 7; fofZ 8; fofZ 9]) = map B2SF [fofZ 7; fofZ 8; fofZ 3]
  /\ (forall n : nat, fleb ((fun _ => flit 1 (-1)) n) fone = true).
Proof. split; reflexivity. Qed.
Print Assumptions C03_crossover.
Print Assumptions C03_consequences.
Print Assumptions C03_CR1.

(** C04: exact arithmetic *)
Theorem C04_inverse : forall lo hi x, lo < hi ->
  toUnityR lo hi (fromUnityR lo hi x) = x /\ fromUnityR lo hi (toUnityR lo hi x) = x.
Proof. intros. split; [now apply unity_inverse1|now apply unity_inverse2]. Qed.
Theorem C04_ends_order_range : forall lo hi, lo < hi ->
  fromUnityR lo hi 0 = lo /\ fromUnityR lo hi 1 = hi /\
  (forall u u', u < u' <-> fromUnityR lo hi u < fromUnityR lo hi u') /\
  (forall u, 0 <= u <= 1 <-> lo <= fromUnityR lo hi u <= hi).
Proof.
  intros lo hi H. destruct (unity_ends lo hi). split; auto. split; auto.
  split; intros; [now apply unity_mono|now apply unity_range].
Qed.
(** C04 in binary64: a unit value never maps below the lower bound, and never
    above the rounded lo + (hi - lo) (which may exceed hi by rounding) *)
Theorem C04_float_range : forall lo hi u, okbound lo -> okbound hi -> fleb lo hi = true ->
  fleb fzero u = true -> fleb u fone = true ->
  fleb lo (fromUnity1 lo hi u) = true /\ fleb (fromUnity1 lo hi u) (fadd lo (fsub hi lo)) = true.
Proof. exact fromUnity_float. Qed.
(** in binary64 the upper bound can be exceeded: lo = -1, hi = 1 - 2^-53, u = 1 *)
Theorem C04_float_upper_refuted : exists lo hi u, okbound lo /\ okbound hi /\ fleb lo hi = true /\
  fleb fzero u = true /\ fleb u fone = true /\ fltb hi (fromUnity1 lo hi u) = true.
Proof.
  exists (fofZ (-1)), (flit (2^53-1) (-53)), fone.
  repeat split; try (apply okbound_dec; vm_compute; reflexivity); vm_compute; reflexivity.
Qed.
Example C04_ex : (-5 < 10)%R /\ fromUnityR (-5) 10 (1/3) = 0 /\ okbound (fofZ 2) /\ fleb fzero (flit 1 (-2)) = true.
Proof. split; [lra|]. split; [unfold fromUnityR; lra|]. split; [apply okbound_dec; reflexivity|reflexivity]. Qed.
Print Assumptions C04_inverse.
Print Assumptions C04_ends_order_range.
Print Assumptions C04_float_range.
Print Assumptions C04_float_upper_refuted.

(** C05: accepted exactly when every constraint accepts the name->value dict *)
Theorem C05_conjunctive : forall names cs v, passesConstraints names cs v = Ok true <->
  Forall (fun f : constr => f (mk_params names v) = Ok true) cs.
Proof. exact passes_iff. Qed.
(** the dict has each (distinct) name's own value and nothing else *)
Theorem C05_dict : forall names values, NoDup names ->
  (forall k n v, nth_error names k = Some n -> nth_error values k = Some v ->
     dict_get (mk_params names values) n = Some v) /\
  (forall n, ~ In n names -> dict_get (mk_params names values) n = None).
Proof. intros names values H. split; intros; [eapply params_get; eauto|now apply params_only]. Qed.
Theorem C05_no_constraints : forall names v, passesConstraints names [] v = Ok true.
Proof. reflexivity. Qed.
(** order does not matter if no constraint raises *)
Theorem C05_order_independent : forall names cs cs' v, Permutation cs cs' ->
  Forall (fun f : constr => exists b, f (mk_params names v) = Ok b) cs ->
  passesConstraints names cs v = passesConstraints names cs' v.
Proof. exact passes_perm. Qed.
(** ... and it can if one does *)
Theorem C05_order_raising_refuted : exists names cs cs' v, Permutation cs cs' /\
  passesConstraints names cs v <> passesConstraints names cs' v.
Proof.
  exists [], [fun _ => Ok false; fun _ => Raise KeyError], [fun _ => Raise KeyError; fun _ => Ok false], [].
  split; [constructor|discriminate].
Qed.
Theorem C05_setConstraints : forall old args,
  (forall l, args = map Some l -> setConstraints old args = (l, None)) /\
  (In None args -> setConstraints old args = (old, Some ValueError)).
Proof. exact setConstraints_spec. Qed.
Definition ex_c1 : constr := fun d => match dict_get d "alpha" with Some x => Ok (fltb x (fofZ 3)) | None => Raise KeyError end.
Definition ex_c2 : constr := fun d => match dict_get d "beta" with Some x => Ok (fltb fone x) | None => Raise KeyError end.
Example C05_ex :
  passesConstraints (pm_names ex_pm) [ex_c1; ex_c2] [fofZ 2; fofZ 2] = Ok true /\
  passesConstraints (pm_names ex_pm) [ex_c1; ex_c2] [fofZ 2; fzero] = Ok false /\
  Forall (fun f : constr => exists b, f (mk_params (pm_names ex_pm) [fofZ 2; fzero]) = Ok b) [ex_c1; ex_c2] /\
  NoDup (pm_names ex_pm) /\ In None [Some ex_c1; None].
Proof.
  repeat split; try reflexivity.
  - repeat constructor; eexists; reflexivity.
  - repeat constructor; simpl; intuition discriminate.
  - simpl; auto.
Qed.
Print Assumptions C05_conjunctive.
Print Assumptions C05_dict.
Print Assumptions C05_no_constraints.
Print Assumptions C05_order_independent.
Print Assumptions C05_order_raising_refuted.
Print Assumptions C05_setConstraints.

(** C06: every position exactly once, in ascending name order, with its own
    name and value *)
Theorem C06_positions_once : forall names, NoDup names ->
  Permutation (sortedNameIndices names) (seq 0 (length names)).
Proof. exact sortedNameIndices_perm. Qed.
Theorem C06_ascending : forall names, exists l,
  namerator_names names = map Some l /\ Permutation l names /\ Sorted (fun a b => String.leb a b = true) l.
Proof.
  intros names. exists (ssort names). split; [apply sortedNameIndices_names|]. split; [apply ssort_perm|apply ssort_sorted].
Qed.
Theorem C06_own_name_and_value : forall A names (values : list A) k n v, length values = length names ->
  In (k, n, v) (namerator_values names values) ->
  exists n' v', n = Some n' /\ v = Some v' /\ nth_error names k = Some n' /\ nth_error values k = Some v'.
Proof.
  intros A names values k n v L H. unfold namerator_values in H. apply in_map_iff in H.
  destruct H as (k' & [= -> <- <-] & H). unfold sortedNameIndices in H. apply in_map_iff in H.
  destruct H as (s & <- & H).
  assert (I : In s names) by (eapply Permutation_in; [apply ssort_perm|auto]).
  destruct (sindex_nth names s I) as [E _]. rewrite E.
  destruct (nth_error values (sindex names s)) as [v'|] eqn:E'; eauto 8.
  apply nth_error_None in E'. assert (sindex names s < length names)%nat by (apply nth_error_Some; congruence). lia.
Qed.
(** with a duplicated name the first position is repeated *)
Theorem C06_duplicate_refuted : exists names, ~ Permutation (sortedNameIndices names) (seq 0 (length names)).
Proof.
  exists ["x"; "x"]%string. intros P. change (Permutation [0; 0]%nat [0; 1]%nat) in P.
  apply Permutation_sym in P. assert (I : In 1%nat [0; 0]%nat) by (eapply Permutation_in; [exact P|simpl; auto]).
  simpl in I. intuition discriminate.
Qed.
Example C06_ex : NoDup ["q"; "b"; "z"; "a"]%string /\
  namerator_values ["q"; "b"; "z"; "a"]%string [1; 2; 3; 4]%nat =
  [(3, Some "a", Some 4); (1, Some "b", Some 2); (0, Some "q", Some 1); (2, Some "z", Some 3)]%nat%string.
Proof. split; [repeat constructor; simpl; intuition discriminate|reflexivity]. Qed.
Print Assumptions C06_positions_once.
Print Assumptions C06_ascending.
Print Assumptions C06_own_name_and_value.
Print Assumptions C06_duplicate_refuted.

(** C07: the suffix *)
Theorem C07_stars : forall lo hi v,
  let u := fdiv (fsub v lo) (fsub hi lo) in
  exists a b, isfin a = true /\ Rabs (B2R a - 5 / 100) <= bpow radix2 (-58) /\
  isfin b = true /\ Rabs (B2R b - 95 / 100) <= bpow radix2 (-54) /\
  (suffix lo hi v = OneStar <-> fltb u a = true) /\
  (suffix lo hi v = TwoStars <-> fltb b u = true).
Proof.
  intros lo hi v u. exists f_0_05, f_0_95.
  destruct (flit_val 3602879701896397 (-56)) as [F1 V1]; [reflexivity|lia|]. destruct (flit_val 4278419646001971 (-52)) as [F2 V2]; [reflexivity|lia|].
  split; [exact F1|]. split; [unfold f_0_05; rewrite V1; apply Rabs_le; simpl; lra|].
  split; [exact F2|]. split; [unfold f_0_95; rewrite V2; apply Rabs_le; simpl; lra|]. exact (suffix_spec lo hi v).
Qed.
Theorem C07_ends : forall lo hi, isfin lo = true -> isfin hi = true -> fltb lo hi = true ->
  isfin (fsub hi lo) = true -> suffix lo hi lo = OneStar /\ suffix lo hi hi = TwoStars.
Proof. exact suffix_ends. Qed.
Example C07_ex : suffix (fofZ (-5)) (fofZ 5) (fofZ (-5)) = OneStar /\ suffix (fofZ (-5)) (fofZ 5) (fofZ 1) = NoStar /\
  suffix (fofZ (-5)) (fofZ 5) (flit 39 (-3)) = TwoStars /\ isfin (fsub (fofZ 5) (fofZ (-5))) = true /\ fltb (fofZ (-5)) (fofZ 5) = true.
Proof. repeat split. Qed.
Print Assumptions C07_stars.
Print Assumptions C07_ends.

(** C08 *)
Theorem C08_population_size : forall ps Nd, let ps' := match ps with None => 10 | Some z => if Z.eqb z 0 then 10 else z end%Z in
  (20 <= pop_Np ps Nd <= 500)%Z /\
  (20 <= ps' * Nd <= 500 -> pop_Np ps Nd = ps' * Nd)%Z /\
  (4 <= pop_Np ps Nd)%Z.
Proof. intros ps Nd ps'. unfold pop_Np. fold ps'. lia. Qed.
Theorem C08_monotone : forall z z' Nd Nd', (0 < z <= z' -> 0 <= Nd <= Nd' -> pop_Np (Some z) Nd <= pop_Np (Some z') Nd')%Z.
Proof.
  intros z z' Nd Nd' H H'. unfold pop_Np.
  destruct (Z.eqb_spec z 0); [lia|]. destruct (Z.eqb_spec z' 0); [lia|].
  assert (z * Nd <= z' * Nd')%Z by nia. lia.
Qed.
Example C08_ex : pop_Np None 3 = 30%Z /\ pop_Np (Some 0%Z) 1 = 20%Z /\ pop_Np (Some 1000%Z) 7 = 500%Z /\ pop_Np (Some (-3)%Z) 7 = 20%Z.
Proof. repeat split. Qed.
Print Assumptions C08_population_size.
Print Assumptions C08_monotone.
