(** C13-C16: individuals.  Statements only; proofs in IndivProofs.v *)
From Coq Require Import List Bool ZArith Reals Permutation Lra.
From Flocq Require Import Core BinarySingleNaN.
From Verif Require Import Flt Py IndivModel IndivProofs.
Import ListNotations.
Open Scope R_scope.

(** concrete individuals for the examples *)
Definition ex_lo : indiv := mkIndiv [fofZ 1; fofZ 2] (Some (fofZ 3)) None.
Definition ex_hi : indiv := mkIndiv [fofZ 1; fofZ 5] (Some (fofZ 7)) (Some fone).
Definition ex_fatal : indiv := mkIndiv [fofZ 1; fofZ 2] (Some (fofZ (-1))) None.
Definition ex_nan : indiv := mkIndiv [fofZ 1; fofZ 2] (Some fnan) None.
Definition ex_fresh : indiv := mkIndiv [fofZ 1; fofZ 2] None None.

(** C13: the SSE reads +inf when unset or negative, as stored otherwise; it is
    never negative *)
Theorem C13_sse_reading : forall i,
  (istored i = None -> ind_SSE i = finf) /\
  (forall x, istored i = Some x -> fltb x fzero = true -> ind_SSE i = finf) /\
  (forall x, istored i = Some x -> fltb x fzero = false -> ind_SSE i = x) /\
  fltb (ind_SSE i) fzero = false /\ ind_float i = ind_SSE i.
Proof. intros i. destruct (SSE_reading i) as (A & B & C). auto using SSE_not_neg, float_SSE. Qed.
Example C13_sse_reading_ex :
  fltb (fofZ (-1)) fzero = true /\ fltb (fofZ 3) fzero = false /\ fltb fnan fzero = false /\ fltb fnzero fzero = false.
Proof. repeat split. Qed.
Print Assumptions C13_sse_reading.

(** C13: false exactly when the stored SSE is negative *)
Theorem C13_truth : forall i,
  ind_bool i = false <-> exists x, istored i = Some x /\ fltb x fzero = true.
Proof. exact bool_false_iff. Qed.
Example C13_truth_ex : map ind_bool [ex_lo; ex_fatal; ex_nan; ex_fresh] = [true; false; true; true].
Proof. reflexivity. Qed.
Print Assumptions C13_truth.

(** C13: [<] is a strict order, [>] its mirror image *)
Theorem C13_order : forall a b c,
  ind_lt a a = false /\
  (ind_lt a b = true -> ind_lt b a = false) /\
  (ind_lt a b = true -> ind_lt b c = true -> ind_lt a c = true) /\
  ind_gt a b = ind_lt b a.
Proof. exact lt_strict_order. Qed.
(** C13: it compares the SSEs as extended real numbers ([key] puts the
    infinities at +-2^1024), with NaN incomparable *)
Theorem C13_order_is_real_order : forall a b, ind_lt a b = true <->
  isnan (ind_SSE a) = false /\ isnan (ind_SSE b) = false /\ key (ind_SSE a) < key (ind_SSE b).
Proof. exact lt_reals. Qed.
Theorem C13_total : forall a b, isnan (ind_SSE a) = false -> isnan (ind_SSE b) = false ->
  ind_lt a b = true \/ ind_lt b a = true \/ feqb (ind_SSE a) (ind_SSE b) = true.
Proof. exact lt_total. Qed.
Theorem C13_nan_incomparable : forall a b, isnan (ind_SSE a) = true -> ind_lt a b = false /\ ind_lt b a = false.
Proof. exact lt_nan. Qed.
(** C13: a fatal individual beats nobody and loses to every finite one *)
Theorem C13_fatal_loses : forall a b, ind_bool a = false ->
  ind_lt a b = false /\ (isfin (ind_SSE b) = true -> ind_lt b a = true).
Proof. exact fatal_loses. Qed.
Example C13_order_ex : ind_lt ex_lo ex_hi = true /\ ind_lt ex_hi ex_fatal = true /\ ind_lt ex_nan ex_hi = false /\
  isnan (ind_SSE ex_lo) = false /\ isnan (ind_SSE ex_nan) = true /\ ind_bool ex_fatal = false /\ isfin (ind_SSE ex_hi) = true.
Proof. repeat split. Qed.
Print Assumptions C13_order.
Print Assumptions C13_order_is_real_order.
Print Assumptions C13_total.
Print Assumptions C13_nan_incomparable.
Print Assumptions C13_fatal_loses.

(** C14: copying an individual of the right length always works, and gives the
    same values and SSE *)
Theorem C14_copy : forall i, exists j,
  ind_copy (length (ivalues i)) i = Ok j /\ ivalues j = ivalues i /\ ind_SSE j = ind_SSE i.
Proof. exact copy_spec. Qed.
(** C14: the copy compares equal and ranks the same (NaN compares unequal even
    to itself, so it is excluded from the equality) *)
Theorem C14_copy_equal : forall i j,
  ind_copy (length (ivalues i)) i = Ok j ->
  isnan (ind_SSE i) = false -> Forall (fun x => isnan x = false) (ivalues i) ->
  ind_eq j i = true /\ (forall k, ind_lt j k = ind_lt i k /\ ind_lt k j = ind_lt k i).
Proof. exact copy_equal. Qed.
(** C14 finding: "a complete copy of me" drops the fatal flag *)
Theorem C14_copy_of_fatal_is_true : forall i j,
  ind_copy (length (ivalues i)) i = Ok j -> ind_bool j = true.
Proof. exact copy_loses_fatal. Qed.
Theorem C14_copy_faithful_refuted : exists i j,
  ind_copy (length (ivalues i)) i = Ok j /\ ind_bool i = false /\ ind_bool j = true.
Proof. exists ex_fatal. eexists. split; [reflexivity|]. split; reflexivity. Qed.
(** C14: whatever order the set of attribute names is iterated in *)
Theorem C14_pickle : forall i st, Permutation st (ind_getstate i) -> ind_setstate st = Some i.
Proof. exact pickle_roundtrip. Qed.
Theorem C14_update : forall Nd i vs,
  (length vs = Nd -> ind_update Nd i vs = (mkIndiv vs (istored i) (idt i), None)) /\
  (length vs <> Nd -> ind_update Nd i vs = (i, Some ValueError)).
Proof. exact update_spec. Qed.
Example C14_ex :
  ind_copy (length (ivalues ex_lo)) ex_lo = Ok ex_lo /\ isnan (ind_SSE ex_lo) = false /\
  Forall (fun x => isnan x = false) (ivalues ex_lo) /\
  Permutation [PSdt None; PSvalues (ivalues ex_lo); PSsse (Some (fofZ 3))] (ind_getstate ex_lo) /\
  snd (ind_update 2 ex_lo [fone]) = Some ValueError.
Proof.
  repeat split; try (repeat constructor).
  unfold ind_getstate; simpl.
  eapply perm_trans; [apply perm_swap|]. apply perm_skip. apply perm_swap.
Qed.
Print Assumptions C14_copy.
Print Assumptions C14_copy_equal.
Print Assumptions C14_copy_of_fatal_is_true.
Print Assumptions C14_copy_faithful_refuted.
Print Assumptions C14_pickle.
Print Assumptions C14_update.

(** C15: individuals that compare equal have the same hashed bytes (or both
    raise) unless a zero is among SSE and values *)
Theorem C15_equal_hash : forall a b, ind_eq a b = true ->
  nonzero (ind_SSE a) -> Forall nonzero (ivalues a) -> ind_hashkey a = ind_hashkey b.
Proof. exact eq_hash. Qed.
Example C15_equal_hash_ex : ind_eq ex_lo (mkIndiv [fofZ 1; fofZ 2] (Some (fofZ 3)) (Some fone)) = true /\
  nonzero (ind_SSE ex_lo) /\ Forall nonzero (ivalues ex_lo) /\ (exists k, ind_hashkey ex_lo = Ok k).
Proof. repeat split; try (repeat constructor). eexists; reflexivity. Qed.
(** the exclusion of zeros is needed: equal individuals, different bytes *)
Theorem C15_equal_hash_zero_refuted : exists a b,
  ind_eq a b = true /\ ind_hashkey a <> ind_hashkey b /\ isfin (ind_SSE a) = true.
Proof.
  exists (mkIndiv [fzero] (Some fone) None), (mkIndiv [fnzero] (Some fone) None).
  split; [reflexivity|]. split; [|reflexivity]. intros H. discriminate H.
Qed.
(** C15: hashing raises exactly from the single precision overflow threshold
    2^128 - 2^103 on (finite SSE); it never raises for an infinite or NaN SSE *)
Theorem C15_hash_raises : forall i, isfin (ind_SSE i) = true ->
  (ind_hashkey i = Raise OverflowError <-> bpow radix2 128 - bpow radix2 103 <= B2R (ind_SSE i)).
Proof. exact hash_raises_iff. Qed.
Theorem C15_hash_nonfinite : forall i, isfin (ind_SSE i) = false -> exists k, ind_hashkey i = Ok k.
Proof. intros i H. unfold ind_hashkey. rewrite H. simpl. eauto. Qed.
Example C15_hash_raises_ex : ind_hashkey (mkIndiv [fone] (Some (flit 1 200)) None) = Raise OverflowError /\
  isfin (flit 1 200) = true.
Proof. split; reflexivity. Qed.
Print Assumptions C15_equal_hash.
Print Assumptions C15_equal_hash_zero_refuted.
Print Assumptions C15_hash_raises.
Print Assumptions C15_hash_nonfinite.

(** C16: the outcome of an evaluation *)
Theorem C16_evaluate : forall func t p i,
  let '(p', i') := evaluate func t p i in
  ivalues i' = ivalues i /\ ep_running p' = ep_running p /\
  match func (eval_arg p i) with
  | EvSSE x => istored i' = x /\ ep_counter p' = S (ep_counter p) /\ idt i' = Some t
  | EvFailure => ind_bool i' = false /\ ind_SSE i' = finf /\ ep_counter p' = ep_counter p
  end.
Proof. exact evaluate_spec. Qed.
(** C16: an aborting population shows the user's function None instead of
    values: the outcome depends on nothing but the function's answer to None *)
Theorem C16_no_values_when_aborting : forall func func' t p i, ep_running p = Some false ->
  (forall a, a = None -> func a = func' a) -> evaluate func t p i = evaluate func' t p i.
Proof. exact eval_aborting. Qed.
(** otherwise it is shown the individual's own values *)
Theorem C16_values_otherwise : forall p i, ep_running p <> Some false -> eval_arg p i = Some (ivalues i).
Proof. intros [[[|]|] c] i H; try reflexivity. now elim H. Qed.
Example C16_ex :
  let f := fun a => match a with Some (x :: _) => EvSSE (Some x) | _ => EvFailure end in
  evaluate f fone (mkEvpop (Some true) 4) ex_fresh = (mkEvpop (Some true) 5, mkIndiv [fofZ 1; fofZ 2] (Some (fofZ 1)) (Some fone)) /\
  ind_bool (snd (evaluate f fone (mkEvpop (Some false) 4) ex_fresh)) = false.
Proof. split; reflexivity. Qed.
Print Assumptions C16_evaluate.
Print Assumptions C16_no_values_when_aborting.
Print Assumptions C16_values_otherwise.
