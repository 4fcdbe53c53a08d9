(** * Properties of the reporter: C43, C44, C45, C46 *)
From Coq Require Import String List Bool Arith ZArith Reals Lra Lia.
From Flocq Require Import Core BinarySingleNaN.
From Verif Require Import Flt FltMore Py IndivModel RepModel RepProofs RepFloat RunModel AnalRange ScoreProofs.
Import ListNotations.
Local Open Scope string_scope.
Local Open Scope nat_scope.
#[local] Arguments fltb : simpl never.
#[local] Arguments fleb : simpl never.
#[local] Arguments feqb : simpl never.
#[local] Arguments fofZ : simpl never.
#[local] Arguments fdiv : simpl never.
#[local] Arguments frint : simpl never.
#[local] Arguments ind_lt : simpl never.
#[local] Arguments ind_bool : simpl never.
#[local] Arguments ind_eq : simpl never.
#[local] Arguments is_equiv : simpl never.
#[local] Arguments msg_ratio : simpl never.

Definition ex_i (v sse : Z) : indiv := mkIndiv [fofZ v] (Some (fofZ sse)) None.
Definition ex_h (l : list indiv) (n : nat) : indiv := nth n l (mkIndiv [] None None).

(** ** C43 *)
(** the individuals reported: alone, without a fatal error; or as the
    challenger of a pair *)
Definition reported (h : nat -> indiv) (es : list revent) : list nat :=
  flat_map (fun e => match e with
    | RCall i None _ _ => if ind_bool (h i) then [i] else []
    | RCall i (Some _) _ _ => [i]
    | _ => [] end) es.
Definition no_blacklisting (es : list revent) : Prop := forall n, ~ In (RComplained n true) es.
Lemma nb_forall : forall es, no_blacklisting es -> Forall no_complaint es.
Proof. intros es H. apply Forall_forall. intros [| |n [|]|] I; simpl; auto. apply (H n I). Qed.
Lemma lt_bool : forall a b, ind_lt a b = true -> ind_bool a = true.
Proof.
  intros a b H. unfold ind_lt in H. rewrite !float_SSE in H. unfold ind_bool. unfold ind_SSE in H at 1. destruct (istored a) as [x|]; auto.
  destruct (isnan x) eqn:N; auto. destruct (fltb x fzero) eqn:E.
  - exfalso. apply fltb_spec in H as (_ & N2 & H). assert (B := key_bound (ind_SSE b)). change (key finf) with big in H. lra.
  - apply fleb_spec. repeat split; auto. change (key fzero) with 0%R. apply fltb_false in E; auto.
Qed.

Theorem C43_minimum : forall ncb h es, no_blacklisting es ->
  let s := rep_exec ncb (r_init h) es in
  (reported h es = [] -> best s = None) /\
  forall i0 l, reported h es = i0 :: l -> isnan (ind_SSE (h i0)) = false ->
    exists b, best s = Some b /\ In b (reported h es) /\ isnan (ind_SSE (h b)) = false /\
      (forall i, In i (reported h es) -> ind_lt (h i) (h b) = false /\
         (isnan (ind_SSE (h i)) = false -> fleb (ind_SSE (h b)) (ind_SSE (h i)) = true)) /\
      (ind_bool (h i0) = true -> ind_bool (h b) = true).
Proof.
  intros ncb h es NB s. destruct (exec_best ncb es (r_init h) (nb_forall es NB)) as [A B]. fold s in A, B. cbn [r_init heap best] in A, B.
  change (flat_map (counts h) es) with (reported h es) in B. split; [intros E; now rewrite B, E|].
  intros i0 l E N. rewrite E in B. cbn [fold_left upd_best] in B. destruct (fold_best h l i0 N) as (m & M1 & M2 & M3 & M4 & M5).
  exists m. rewrite E. split; [congruence|]. split; auto. split; auto. split.
  - intros i I. split; [now apply M5|]. intros Ni. specialize (M5 i I). unfold ind_lt in M5. rewrite !float_SSE in M5.
    apply fleb_spec. repeat split; auto. now apply fltb_false in M5.
  - intros Hb. destruct M4 as [->|M4]; auto. apply lt_bool with (h i0). unfold ind_lt. now rewrite !float_SSE.
Qed.
Print Assumptions C43_minimum.
Example C43_ex : let h := ex_h [ex_i 0 5; ex_i 1 7; ex_i 2 3; ex_i 3 4; ex_i 4 (-1)] in
  let es := [RCall 1 None false false; RDone 0 CbNone; RCall 0 (Some 1) false false; RCall 4 None false false; RDone 0 CbComplains; RComplained 0 false; RCall 2 (Some 0) true false; RCall 3 None false true] in
  no_blacklisting es /\ reported h es = [1; 0; 2; 3] /\ isnan (ind_SSE (h 1)) = false /\ best (rep_exec 2 (r_init h) es) = Some 2.
Proof. split; [intros n I; simpl in I; repeat (destruct I as [I|I]; [discriminate|]); destruct I|]. repeat split; vm_compute; reflexivity. Qed.

(** a first report with a NaN SSE stays the best whatever is reported later *)
Theorem C43_nan_refuted : forall ncb h es i0 l, no_blacklisting es -> reported h es = i0 :: l -> isnan (ind_SSE (h i0)) = true ->
  best (rep_exec ncb (r_init h) es) = Some i0.
Proof.
  intros ncb h es i0 l NB E N. destruct (exec_best ncb es (r_init h) (nb_forall es NB)) as [A B]. cbn [r_init heap best] in A, B.
  change (flat_map (counts h) es) with (reported h es) in B. rewrite B, E. cbn [fold_left upd_best]. clear - N.
  induction l as [|i l IH]; auto. cbn [fold_left]. unfold upd_best at 2. destruct (ind_lt (h i) (h i0)) eqn:L; auto. exfalso.
  unfold ind_lt in L. rewrite !float_SSE in L. apply fltb_nan in L as [_ L]. congruence.
Qed.
Print Assumptions C43_nan_refuted.
Example C43_nan_ex : let h := ex_h [mkIndiv [fone] (Some fnan) None; ex_i 1 7] in
  let es := [RCall 0 None false false; RCall 1 None false false; RCall 1 (Some 0) false true] in
  reported h es = [0; 1; 1] /\ isnan (ind_SSE (h 0)) = true /\ isfin (ind_SSE (h 1)) = true /\ best (rep_exec 2 (r_init h) es) = Some 0.
Proof. repeat split; vm_compute; reflexivity. Qed.
(** a fatal individual reported as the challenger of a pair can become the best *)
Theorem C43_fatal_refuted : exists ncb h i o, ind_bool (h i) = false /\
  best (rep_exec ncb (r_init h) [RCall i (Some o) false false]) = Some i.
Proof. exists 0, (ex_h [ex_i 0 (-1); ex_i 1 7]), 0, 1. split; vm_compute; reflexivity. Qed.
Print Assumptions C43_fatal_refuted.

(** ** C44 *)
Lemma Some_inj : forall A (x y : A), Some x = Some y -> x = y. Proof. congruence. Qed.
(** None exactly for a fatal individual or a strictly worse challenger *)
Theorem C44_none : forall num denom c, fst (msg_ratio num denom c) = None <->
  ind_bool num = false \/ ind_bool denom = false \/
  (isfin (ind_SSE num) = true /\ isfin (ind_SSE denom) = true /\ ind_lt num denom = true).
Proof.
  intros n d c. assert (NF : forall i, isfin (ind_SSE i) = negb (bogus i)).
  { intros i. unfold bogus. destruct (ind_SSE i) as [?|[]| |? ? ? ?]; reflexivity. }
  rewrite !NF. unfold msg_ratio. destruct (ind_bool n) eqn:Bn; [|simpl; split; auto]. destruct (ind_bool d) eqn:Bd; [|simpl; split; auto]. cbn [negb orb].
  destruct (bogus n); [destruct (bogus d); simpl; split; [discriminate|intros [|[|(? & ? & ?)]]; discriminate| discriminate|intros [|[|(? & ? & ?)]]; discriminate]|].
  destruct (bogus d); [simpl; split; [discriminate|intros [|[|(? & ? & ?)]]; discriminate]|].
  destruct (ind_lt n d); [simpl; split; auto|]. destruct (is_equiv _ _); simpl; (split; [discriminate|intros [|[|(? & ? & ?)]]; discriminate]).
Qed.
Print Assumptions C44_none.
Lemma ratio_ge1 : forall n d, bogus n = false -> bogus d = false -> ind_lt n d = false -> feqb (ind_SSE d) fzero = false ->
  let q := fdiv (ind_SSE n) (ind_SSE d) in isnan (frint q) = false /\ (1 <= key (frint q))%R.
Proof.
  intros n d Bn Bd L Z q. destruct (not_bogus n Bn) as [Fn Pn]. destruct (not_bogus d Bd) as [Fd Pd].
  unfold ind_lt in L. rewrite !float_SSE in L. apply fltb_false in L; [|now apply nan_fin|now apply nan_fin]. rewrite !key_fin in L by auto.
  assert (D0 : B2R (ind_SSE d) <> 0%R). { intros E. apply feqb_zero in E; auto. congruence. }
  destruct (quotient_ge1 _ _ Fn Fd) as [A B]; [lra|]. now apply frint_ge1.
Qed.
(** 0 exactly for non-fatal individuals, the challenger being bogus, or both
    finite, the challenger not worse and the two equivalent; every other ratio
    is at least 1 *)
Theorem C44_zero : forall num denom c r, fst (msg_ratio num denom c) = Some r ->
  (feqb r fzero = true <-> isfin (ind_SSE denom) = false \/ (isfin (ind_SSE num) = true /\ is_equiv (Some denom) (Some num) = true)) /\
  (feqb r fzero = false -> fleb fone r = true).
Proof.
  intros n d c r H. assert (NF : forall i, isfin (ind_SSE i) = negb (bogus i)).
  { intros i. unfold bogus. destruct (ind_SSE i) as [?|[]| |? ? ? ?]; reflexivity. }
  rewrite !NF. unfold msg_ratio in H. destruct (_ || _); [discriminate|].
  assert (E0 : feqb fzero fzero = true) by (vm_compute; reflexivity). assert (E1 : feqb (fofZ 1000) fzero = false) by (vm_compute; reflexivity).
  assert (E2 : fleb fone (fofZ 1000) = true) by (vm_compute; reflexivity).
  destruct (bogus n) eqn:Bn.
  - destruct (bogus d) eqn:Bd; cbn [fst] in H; apply Some_inj in H; subst r; simpl.
    + rewrite E0. split; [split; auto|discriminate].
    + rewrite E1. split; [split; [discriminate|intros [|[]]; discriminate]|auto].
  - destruct (bogus d) eqn:Bd; [cbn [fst] in H; apply Some_inj in H; subst r; rewrite E0; simpl; split; [split; auto|discriminate]|].
    destruct (ind_lt n d) eqn:L; [discriminate|]. destruct (is_equiv (Some d) (Some n)) eqn:Q; cbn [fst] in H; cbv zeta in H; cbn [fst] in H.
    + apply Some_inj in H; subst r. rewrite E0. simpl. split; [split; auto|discriminate].
    + destruct (feqb (ind_SSE d) fzero) eqn:Z.
      * apply Some_inj in H; subst r. rewrite E1. simpl. split; [split; [discriminate|intros [|[]]; discriminate]|auto].
      * apply Some_inj in H. subst r. destruct (ratio_ge1 n d Bn Bd L Z) as [R1 R2]. set (x := frint _) in *.
        assert (X : feqb x fzero = false). { destruct (feqb x fzero) eqn:E; auto. exfalso. apply feqb_spec in E as (_ & _ & E). change (key fzero) with 0%R in E. lra. }
        rewrite X. simpl. split; [split; [discriminate|intros [|[]]; discriminate]|]. intros _. apply fleb_spec. rewrite key_fone. auto.
Qed.
Print Assumptions C44_zero.
(** the value otherwise: two finite SSEs, the challenger not worse and not
    equivalent *)
Theorem C44_value : forall num denom c r, fst (msg_ratio num denom c) = Some r -> feqb r fzero = false ->
  (isfin (ind_SSE num) = false \/ B2R (ind_SSE denom) = 0%R -> B2R r = 1000%R) /\
  (isfin (ind_SSE num) = true -> B2R (ind_SSE denom) <> 0%R ->
     r = frint (fdiv (ind_SSE num) (ind_SSE denom)) /\
     (isfin (fdiv (ind_SSE num) (ind_SSE denom)) = true -> B2R r = IZR (ZnearestE (rnd (B2R (ind_SSE num) / B2R (ind_SSE denom)))))).
Proof.
  intros n d c r H NZ. assert (NF : forall i, isfin (ind_SSE i) = negb (bogus i)).
  { intros i. unfold bogus. destruct (ind_SSE i) as [?|[]| |? ? ? ?]; reflexivity. }
  assert (E0 : feqb fzero fzero = true) by (vm_compute; reflexivity).
  assert (K : B2R (fofZ 1000) = 1000%R) by (apply fofZ_val; reflexivity).
  unfold msg_ratio in H. destruct (_ || _); [discriminate|]. destruct (bogus n) eqn:Bn.
  - destruct (bogus d) eqn:Bd; cbn [fst] in H; apply Some_inj in H; subst r; [congruence|].
    split; auto. rewrite NF, Bn. discriminate.
  - assert (Fn : isfin (ind_SSE n) = true) by now rewrite NF, Bn.
    destruct (bogus d) eqn:Bd; [cbn [fst] in H; apply Some_inj in H; subst r; congruence|].
    assert (Fd : isfin (ind_SSE d) = true) by now rewrite NF, Bd.
    destruct (ind_lt n d) eqn:L; [discriminate|]. destruct (is_equiv (Some d) (Some n)) eqn:Q; cbv zeta in H; cbn [fst] in H;
      apply Some_inj in H; subst r; [congruence|].
    destruct (feqb (ind_SSE d) fzero) eqn:Z.
    + apply feqb_zero in Z; auto. split; auto. intros _ C. now destruct C.
    + assert (Z' : B2R (ind_SSE d) <> 0%R) by (intros E; apply feqb_zero in E; auto; congruence).
      split; [intros [C|C]; [congruence|contradiction]|]. intros _ _. split; auto. intros Fq. destruct (frint_fin _ Fq) as [A B]. rewrite B. f_equal. f_equal.
      destruct (fdiv_key _ _ Fn Fd Z') as [N1 K1]. rewrite key_fin in K1 by auto. rewrite K1. apply crnd_rnd. rewrite <- K1. apply fin_bound.
Qed.
Print Assumptions C44_value.
(** equivalence, for a challenger not worse than a target with a positive
    finite SSE: the (rounded) quotient of the two exceeds 1 - minDiff *)
Theorem C44_equivalent : forall worse better, isfin (ind_SSE worse) = true -> isfin (ind_SSE better) = true ->
  (0 < B2R (ind_SSE worse))%R -> ind_lt worse better = false ->
  (is_equiv (Some better) (Some worse) = true <-> (1 - B2R minDiff < rnd (B2R (ind_SSE better) / B2R (ind_SSE worse)))%R).
Proof.
  intros w b Fw Fb P L. apply equiv_iff; auto. assert (Bb : bogus b = false) by (unfold bogus; destruct (ind_SSE b) as [?|[]| |? ? ? ?]; try discriminate; reflexivity).
  split; [now apply not_bogus|]. unfold ind_lt in L. rewrite !float_SSE in L. apply fltb_false in L; [|now apply nan_fin|now apply nan_fin]. rewrite !key_fin in L by auto. exact L.
Qed.
Print Assumptions C44_equivalent.
(** the progress symbol *)
Theorem C44_symbol : forall num denom c r, fst (msg_ratio num denom c) = Some r -> isfin (ind_SSE num) = true -> isfin (ind_SSE denom) = true ->
  exists m, m <= 9 /\ nth_error ["0"; "1"; "2"; "3"; "4"; "5"; "6"; "7"; "8"; "9"] m = Some (snd (msg_ratio num denom c)) /\
    (fltb r (fofZ 10) = true -> B2R r = INR m) /\ (fltb r (fofZ 10) = false -> m = 9).
Proof.
  intros n d c r H Fn Fd. assert (Bn : bogus n = false) by (unfold bogus; destruct (ind_SSE n) as [?|[]| |? ? ? ?]; try discriminate; reflexivity).
  assert (Bd : bogus d = false) by (unfold bogus; destruct (ind_SSE d) as [?|[]| |? ? ? ?]; try discriminate; reflexivity).
  unfold msg_ratio in *. destruct (_ || _); [discriminate|]. rewrite Bn, Bd in *. destruct (ind_lt n d) eqn:L; [discriminate|].
  destruct (is_equiv (Some d) (Some n)) eqn:Q; cbv zeta in *; cbn [fst snd] in *;
    apply Some_inj in H; subst r.
  - exists 0. split; [lia|]. split; auto. split; [reflexivity|]. intros C. vm_compute in C. discriminate.
  - destruct (feqb (ind_SSE d) fzero) eqn:Z.
    + exists 9. assert (T : fltb (fofZ 1000) (fofZ 10) = false) by (vm_compute; reflexivity). rewrite T. split; auto. split; auto. split; [discriminate|auto].
    + destruct (ratio_ge1 n d Bn Bd L Z) as [R1 R2].
      assert (I : isfin (frint (fdiv (ind_SSE n) (ind_SSE d))) = true -> exists z, B2R (frint (fdiv (ind_SSE n) (ind_SSE d))) = IZR z).
      { intros F. destruct (isfin (fdiv (ind_SSE n) (ind_SSE d))) eqn:Fq; [destruct (frint_fin _ Fq) as [_ B]; eauto|].
        exfalso. unfold frint, isfin in *. destruct (fdiv (ind_SSE n) (ind_SSE d)) as [?|[]| |? ? ? ?]; discriminate. }
      set (x := frint (fdiv (ind_SSE n) (ind_SSE d))) in *. destruct (fltb x (fofZ 10)) eqn:T.
      * apply fltb_spec in T as (_ & _ & T). rewrite key_fofZ in T by reflexivity. assert (b := SampFloat.big_4).
        assert (B10 : (key (fofZ 10) < big)%R). { rewrite key_fin by (apply fofZ_val; reflexivity). apply fin_bound. }
        rewrite key_fofZ in B10 by reflexivity.
        destruct (SampFloat.val_of_key x (key x) R1 eq_refl) as [Fx Vx]; [lra|]. destruct (I Fx) as [z Z']. rewrite <- Vx, Z' in *.
        assert (Z1 : (1 <= z)%Z) by (apply le_IZR; exact R2). assert (Z2 : (z < 10)%Z) by (apply lt_IZR; exact T).
        exists (Z.to_nat z). split; [lia|]. unfold digit. rewrite ftrunc_val. rewrite Z', Ztrunc_IZR.
        split; [apply nth_error_nth'; simpl; lia|]. split; [|discriminate]. intros _. rewrite INR_IZR_INZ, Z2Nat.id by lia. reflexivity.
      * exists 9. split; auto. split; auto. split; [discriminate|auto].
Qed.
Print Assumptions C44_symbol.
Example C44_ex :
  snd (msg_ratio (ex_i 0 250) (ex_i 1 100) "!") = "2" /\ snd (msg_ratio (ex_i 0 350) (ex_i 1 100) "!") = "4" /\
  snd (msg_ratio (ex_i 0 101) (ex_i 1 100) "!") = "0" /\ snd (msg_ratio (ex_i 0 103) (ex_i 1 100) "!") = "1" /\
  snd (msg_ratio (ex_i 0 99) (ex_i 1 100) "!") = "X" /\ snd (msg_ratio (ex_i 0 99999) (ex_i 1 100) "!") = "9" /\
  isfin (ind_SSE (ex_i 0 350)) = true /\ fst (msg_ratio (ex_i 0 99) (ex_i 1 100) "!") = None /\
  match fst (msg_ratio (ex_i 0 350) (ex_i 1 100) "!") with Some r => feqb r (fofZ 4) | None => false end = true.
Proof. repeat split; vm_compute; reflexivity. Qed.

(** the docstring promises 1 for a target between 101.1 and 149.9 and a
    challenger of 100; 101.5 (= 203/2) gives 0 *)
Theorem C44_docstring_refuted : exists num denom, B2R (ind_SSE num) = (203 / 2)%R /\ B2R (ind_SSE denom) = 100%R /\
  exists r, fst (msg_ratio num denom "!") = Some r /\ B2R r = 0%R.
Proof.
  exists (mkIndiv [] (Some (flit 203 (-1))) None), (ex_i 0 100).
  assert (A : ind_SSE (mkIndiv [] (Some (flit 203 (-1))) None) = flit 203 (-1)). { unfold ind_SSE. cbn [istored]. assert (E : fltb (flit 203 (-1)) fzero = false) by (vm_compute; reflexivity). now rewrite E. }
  assert (B : ind_SSE (ex_i 0 100) = fofZ 100). { unfold ind_SSE, ex_i. cbn [istored]. assert (E : fltb (fofZ 100) fzero = false) by (vm_compute; reflexivity). now rewrite E. }
  rewrite A, B. split; [destruct (flit_val 203 (-1)) as [_ ->]; [reflexivity|lia|]; simpl; lra|].
  split; [apply fofZ_val; reflexivity|]. exists fzero. split; [|reflexivity]. vm_compute. reflexivity.
Qed.
Print Assumptions C44_docstring_refuted.

(** the ratings credited for a pair: 1 as a bonus, first, exactly when the
    challenger is strictly better than the best reported so far (or the first
    one reported), then the ratio, if there is one; nothing after an abort and
    nothing for an individual reported alone *)
Theorem C44_ratings : forall ncb s pb i other np f s' syms l, pop_report ncb s pb (Some i) other np f = Ok (s', syms, l) ->
  (aborted s = true \/ other = None -> l = []) /\
  (forall o, aborted s = false -> other = Some o ->
     let ratio := match fst (msg_ratio (heap s o) (heap s i) "!") with Some r => [r] | None => [] end in
     ((forall b, best s = Some b -> ind_lt (heap s i) (heap s b) = true) -> l = fone :: ratio) /\
     (forall b, best s = Some b -> ind_lt (heap s i) (heap s b) = false -> l = ratio)).
Proof.
  intros ncb s pb i other np f s' syms l H. unfold pop_report in H. destruct (aborted s) eqn:A.
  { injection H as <- <- <-. split; [auto|discriminate]. }
  unfold rep_call in H. destruct other as [o|].
  - split; [intros [|]; discriminate|]. intros o' _ E. injection E as <-. destruct (msg_ratio (heap s o) (heap s i) "!") as [rir sym]. cbn [fst].
    destruct (best s) as [b|].
    + destruct (ind_lt (heap s i) (heap s b)) eqn:L; injection H as <- <- <-; (split; [intros X; specialize (X b eq_refl)|intros b' E X; injection E as <-]); try congruence; reflexivity.
    + injection H as <- <- <-. split; [reflexivity|discriminate].
  - split; [|intros o _ E; discriminate]. intros _. destruct (ind_bool (heap s i)); cbn [negb] in H; [|injection H as <- <- <-; reflexivity].
    destruct (best s) as [b|]; [destruct (_ || _)|]; injection H as <- <- <-; reflexivity.
Qed.
Print Assumptions C44_ratings.
(** crediting a failed challenger: a bogus challenger, not fatal, of a target
    that is not fatal is credited with the rating 0, which adds 0.1 to the score
    of the replacement *)
Lemma bogus_not_lt : forall i b, isfin (ind_SSE i) = false -> ind_lt i b = false.
Proof.
  intros i b H. unfold ind_lt. rewrite !float_SSE. destruct (fltb (ind_SSE i) (ind_SSE b)) eqn:E; auto. exfalso.
  apply fltb_spec in E as (A & B & E). assert (K := key_bound (ind_SSE b)). assert (P := nonneg_sse i A). destruct (isfin_cases _ A) as [F|[F|F]]; [congruence| |]; rewrite F in *.
  - change (key finf) with big in E. lra.
  - change (key fninf) with (- big)%R in P. assert (b4 := SampFloat.big_4). lra.
Qed.
Theorem C44_failed_credited_refuted : forall ncb s i o b pb np f, aborted s = false -> best s = Some b ->
  ind_bool (heap s i) = true -> ind_bool (heap s o) = true -> isfin (ind_SSE (heap s i)) = false ->
  ind_lt (heap s i) (heap s o) = false /\
  exists syms, pop_report ncb s pb (Some i) (Some o) np f = Ok (s, syms, [fzero]) /\ addition 0 = tenth.
Proof.
  intros ncb s i o b pb np f A B I O N. split; [now apply bogus_not_lt|]. unfold pop_report. rewrite A. unfold rep_call.
  assert (R : fst (msg_ratio (heap s o) (heap s i) "!") = Some fzero).
  { unfold msg_ratio. rewrite I, O. cbn [negb orb]. assert (Bi : bogus (heap s i) = true) by (unfold bogus; destruct (ind_SSE (heap s i)) as [?|[]| |? ? ? ?]; try discriminate; reflexivity).
    rewrite Bi. destruct (bogus (heap s o)); reflexivity. }
  destruct (msg_ratio (heap s o) (heap s i) "!") as [rir sym]. cbn [fst] in R. subst rir. rewrite B, bogus_not_lt by auto. eexists. split; reflexivity.
Qed.
Print Assumptions C44_failed_credited_refuted.
Example C44_failed_ex : let s := rep_exec 1 (r_init (ex_h [ex_i 0 5; mkIndiv [fone] None None])) [RCall 0 None false false] in
  aborted s = false /\ best s = Some 0 /\ ind_bool (heap s 1) = true /\ ind_bool (heap s 0) = true /\ isfin (ind_SSE (heap s 1)) = false.
Proof. repeat split; vm_compute; reflexivity. Qed.
(** a challenger with the same SSE 0 as its target, which is not better and is
    not put in its place, is credited with the rating 1000 *)
Theorem C44_tie_refuted : forall ncb s i o b pb np f, aborted s = false -> best s = Some b ->
  ind_bool (heap s i) = true -> ind_bool (heap s o) = true -> B2R (ind_SSE (heap s i)) = 0%R -> isfin (ind_SSE (heap s i)) = true ->
  B2R (ind_SSE (heap s o)) = 0%R -> isfin (ind_SSE (heap s o)) = true -> ind_lt (heap s i) (heap s b) = false ->
  ind_lt (heap s i) (heap s o) = false /\
  exists syms, pop_report ncb s pb (Some i) (Some o) np f = Ok (s, syms, [fofZ 1000]).
Proof.
  intros ncb s i o b pb np f A B I O Zi Fi Zo Fo L.
  assert (NL : forall x y, isfin (ind_SSE x) = true -> isfin (ind_SSE y) = true -> B2R (ind_SSE x) = B2R (ind_SSE y) -> ind_lt x y = false).
  { intros x y Fx Fy E. unfold ind_lt. rewrite !float_SSE. destruct (fltb _ _) eqn:T; auto. apply fltb_spec in T as (_ & _ & T). rewrite !key_fin in T by auto. lra. }
  assert (NB : forall x, isfin (ind_SSE x) = true -> bogus x = false) by (intros x; unfold bogus; destruct (ind_SSE x) as [?|[]| |? ? ? ?]; try discriminate; reflexivity).
  split; [apply NL; congruence|]. unfold pop_report. rewrite A. unfold rep_call.
  assert (R : fst (msg_ratio (heap s o) (heap s i) "!") = Some (fofZ 1000)).
  { unfold msg_ratio. rewrite I, O. cbn [negb orb]. rewrite !NB, NL by congruence. unfold is_equiv.
    assert (E1 : feqb (ind_SSE (heap s o)) fzero = true) by (apply feqb_zero; auto). assert (E2 : feqb (ind_SSE (heap s i)) fzero = true) by (apply feqb_zero; auto).
    now rewrite E1, E2. }
  destruct (msg_ratio (heap s o) (heap s i) "!") as [rir sym]. cbn [fst] in R. subst rir. rewrite B, L. eexists. reflexivity.
Qed.
Print Assumptions C44_tie_refuted.
Example C44_tie_ex : let s := rep_exec 1 (r_init (ex_h [ex_i 0 0; ex_i 1 0])) [RCall 0 None false false] in
  aborted s = false /\ best s = Some 0 /\ ind_bool (heap s 1) = true /\ isfin (ind_SSE (heap s 1)) = true /\
  feqb (ind_SSE (heap s 1)) fzero = true /\ ind_lt (heap s 1) (heap s 0) = false.
Proof. repeat split; vm_compute; reflexivity. Qed.

(** ** C45 *)
Definition called (l : list lev) : list (nat * nat) :=
  flat_map (fun e => match e with ECall k i _ => [(k, i)] | _ => [] end) l.
(** never two runs at once; cbrInProgress says whether there is one *)
Theorem C45_serialised : forall ncb h es, let s := rep_exec ncb (r_init h) es in
  (runs s = [] /\ inprog s = false) \/ (exists r, runs s = [r] /\ inprog s = true).
Proof.
  intros ncb h es s. assert (I := exec_inv ncb es _ (inv_init ncb h)). fold s in I. unfold inv in I. destruct (runs s) as [|r [|]]; [left|right|destruct I].
  - split; auto. apply I.
  - exists r. split; auto. apply I.
Qed.
Print Assumptions C45_serialised.
(** the calls are a sequence of runs through the callbacks in order, each
    with one individual; all are complete, except the last one as long as it is
    in progress, unless there was an abort *)
Theorem C45_order : forall ncb h es, let s := rep_exec ncb (r_init h) es in
  exists gs : list (nat * nat), called (log s) = concat (map (fun g => map (fun k => (k, fst g)) (seq 0 (snd g))) gs) /\
    Forall (fun g => 1 <= snd g <= ncb) gs /\
    (aborted s = false -> Forall (fun g => snd g = ncb) (removelast gs) /\ (runs s = [] -> Forall (fun g => snd g = ncb) gs)).
Proof.
  intros ncb h es s. assert (I := exec_inv ncb es _ (inv_init ncb h)). fold s in I. unfold inv, after in I. destruct (runs s) as [|r [|]]; [| |destruct I].
  - destruct I as [(gs & A & B & C & _) _]. cbn [option_map olist] in *. rewrite app_nil_r in *. exists gs. split; auto. split; auto. intros Z. split; auto.
    destruct gs as [|g gs] using rev_ind; [constructor|]. rewrite removelast_last. specialize (C Z). now apply Forall_app in C.
  - destruct I as [(gs & A & B & C & _) _]. cbn [option_map olist] in *. exists (gs ++ [curof r])%list. split; auto. split; auto. intros Z. rewrite removelast_last. split; auto. discriminate.
Qed.
Print Assumptions C45_order.
(** every individual handed to a callback had been announced as new best before *)
Theorem C45_scheduled : forall ncb h es pre k i sse post, log (rep_exec ncb (r_init h) es) = (pre ++ ECall k i sse :: post)%list -> In (ESched i) pre.
Proof.
  intros ncb h es pre k i sse post E. assert (I := exec_inv ncb es _ (inv_init ncb h)). unfold inv, after in I.
  assert (SF : sched_first (log (rep_exec ncb (r_init h) es))). { destruct (runs _) as [|r [|]]; [| |destruct I]; destruct I as [(gs & _ & _ & _ & _ & S & _) _]; exact S. }
  specialize (SF _ _ _ _ _ E). unfold scheds in SF. apply in_flat_map in SF as (e & E1 & E2). destruct e; simpl in E2; try contradiction. destruct E2 as [<-|[]]. exact E1.
Qed.
Print Assumptions C45_scheduled.
(** callbacks are given the SSE the individual has when they are called *)
Definition true_calls (h : nat -> indiv) (l : list lev) : Prop := forall k i sse, In (ECall k i sse) l -> sse = ind_SSE (h i).
Lemma true_calls_app : forall h a b, true_calls h a -> true_calls h b -> true_calls h (a ++ b)%list.
Proof. intros h a b A B k i x I. apply in_app_or in I as [I|I]; eauto. Qed.
Definition adds (s s' : rep) : Prop := heap s' = heap s /\ exists new, log s' = (log s ++ new)%list /\ true_calls (heap s) new.
Lemma adds_refl : forall s s', heap s' = heap s -> log s' = log s -> adds s s'.
Proof. intros s s' A B. split; auto. exists []. rewrite app_nil_r. split; auto. intros k i x []. Qed.
Lemma adds_trans : forall a b c, adds a b -> adds b c -> adds a c.
Proof.
  intros a b c [A (n1 & A1 & A2)] [B (n2 & B1 & B2)]. split; [congruence|]. exists (n1 ++ n2)%list. rewrite B1, A1, app_assoc. split; auto.
  apply true_calls_app; auto. now rewrite <- A.
Qed.
Lemma while_adds : forall ncb s ip pb, adds s (fst (while_loop ncb s ip pb)).
Proof.
  intros ncb s ip pb. unfold while_loop. destruct (aborted s); [now apply adds_refl|]. destruct (sched s); [|now apply adds_refl].
  cbv zeta. destruct (_ && _); [now apply adds_refl|]. destruct (ncb =? 0); [now apply adds_refl|]. split; [reflexivity|].
  eexists. split; [reflexivity|]. intros k i x [I|[]]. injection I as <- <- <-. reflexivity.
Qed.
Lemma for_adds : forall ncb s i k pb, adds s (fst (for_loop ncb s i k pb)).
Proof.
  intros ncb s i k pb. unfold for_loop. destruct (aborted s); [apply while_adds|]. destruct (k <? ncb); [|apply while_adds]. split; [reflexivity|].
  eexists. split; [reflexivity|]. intros k' i' x [I|[]]. injection I as <- <- <-. reflexivity.
Qed.
Lemma newbest_adds : forall ncb s i f, adds s (new_best ncb s i f).
Proof.
  intros ncb s i f. unfold new_best. cbv zeta. set (b := match best s with None => true | Some b => ind_lt (heap s i) (heap s b) end). set (s1 := if b then set_best s (Some i) else s).
  assert (A : adds s s1) by (subst s1; destruct b; now apply adds_refl).
  destruct (if _ && _ then _ else _); [|exact A]. eapply adds_trans; [exact A|]. unfold run_callbacks. cbv zeta.
  assert (B : adds s1 (emit (set_sched (set_lastrep s1 (Some i)) (Some i)) (ESched i))).
  { split; [reflexivity|]. eexists. split; [reflexivity|]. intros k' i' x [I|[]]. discriminate I. }
  destruct (inprog _); [exact B|]. eapply adds_trans; [exact B|]. match goal with |- context [while_loop ?n ?s ?a ?b] => assert (W := while_adds n s a b); destruct (while_loop n s a b) as [s2 r] end.
  cbn [fst] in W. destruct r; destruct W as [W1 (n & W2 & W3)]; (split; [exact W1|exists n; split; [exact W2|exact W3]]).
Qed.
Theorem C45_SSE : forall ncb s e, exists new, log (rep_step ncb s e) = (log s ++ new)%list /\
  forall k i sse, In (ECall k i sse) new -> sse = ind_SSE (heap (rep_step ncb s e) i).
Proof.
  intros ncb s e.
  assert (K : forall s' r n, adds s s' -> exists new, log (replace_run s' n r) = (log s ++ new)%list /\ true_calls (heap (replace_run s' n r)) new).
  { intros s' r n [A (new & B & C)]. exists new. split; [exact B|]. cbn [heap replace_run set_runs]. now rewrite A. }
  assert (Z : adds s s) by now apply adds_refl.
  assert (Z' : exists new, log s = (log s ++ new)%list /\ true_calls (heap s) new) by (exists []; rewrite app_nil_r; split; auto; intros ? ? ? []).
  destruct e as [i o np f|n r|n ok|]; cbn [rep_step].
  - assert (A : adds s (fst (fst (fst (rep_call ncb s i o np f))))).
    { unfold rep_call. destruct o as [o|].
      - destruct (msg_ratio _ _ _). destruct (match best s with None => true | Some b => ind_lt (heap s i) (heap s b) end); [apply newbest_adds|exact Z].
      - destruct (negb _); [exact Z|]. destruct (best s); [destruct (_ || _)|]; try apply newbest_adds. exact Z. }
    destruct A as [A (new & B & C)]. exists new. split; [exact B|]. unfold true_calls in C. now rewrite A.
  - destruct (nth_error (runs s) n) as [[i k pb ph]|]; [|exact Z']. destruct ph; [|exact Z'|exact Z']. destruct r.
    + assert (X := for_adds ncb s i (S k) pb). destruct (for_loop _ _ _ _ _). now apply K.
    + destruct (_ && _).
      * apply K. split; [reflexivity|]. eexists. split; [reflexivity|]. intros k' i' x [I|[]]. discriminate I.
      * assert (X := for_adds ncb s i (S k) pb). destruct (for_loop _ _ _ _ _). now apply K.
    + assert (X := while_adds ncb (set_aborted s true) (Some i) pb). destruct (while_loop _ _ _ _). apply K. eapply adds_trans; [|exact X]. now apply adds_refl.
  - destruct (nth_error (runs s) n) as [[i k pb ph]|]; [|exact Z']. destruct ph; [exact Z'| |exact Z']. destruct ok; [|now apply K]. cbv zeta.
    match goal with |- context [for_loop _ ?s1 _ _ _] => set (s2 := s1); assert (X := for_adds ncb s2 i (S k) pb); destruct (for_loop ncb s2 i (S k) pb) as [s3 r] end.
    destruct X as [A (new & B & C)]. exists new. cbn [replace_run set_runs log heap fst] in *. split; [|unfold true_calls in C; now rewrite A].
    rewrite B. f_equal. subst s2. destruct (_ && _); reflexivity.
  - exact Z'.
Qed.
Print Assumptions C45_SSE.
(** one call for an individual with SSE 5, and after a complaint the next callback is told
    that its SSE is infinite *)
Example C45_SSE_ex : let s := rep_exec 2 (r_init (ex_h [ex_i 0 5])) [RCall 0 None false false; RDone 0 CbComplains] in
  map (fun e => match e with ECall k i x => (k, i, feqb x (fofZ 5), feqb x finf) | ESched i => (9, i, false, false) | EComplaint i => (8, i, false, false) end) (log (rep_step 2 s (RComplained 0 true))) =
  [(9, 0, false, false); (0, 0, true, false); (8, 0, false, false); (1, 0, false, true)].
Proof. vm_compute. reflexivity. Qed.
(** when a report is made: an individual reported alone and without a fatal error
    is announced to the callbacks when it is forced, or strictly better than the
    best so far and not equivalent to the last one announced; a challenger only
    when strictly better; and never the same individual twice running *)
Theorem C45_when : forall ncb s i other np force,
  let s' := rep_step ncb s (RCall i other np force) in
  let better := match best s with None => True | Some b => ind_lt (heap s i) (heap s b) = true end in
  let repeated := exists l, lastrep s = Some l /\ ind_bool (heap s l) = true /\ ind_eq (heap s i) (heap s l) = true in
  let announced := (other = None -> ind_bool (heap s i) = true) /\ ~ repeated /\
    ((other = None /\ force = true) \/
     (better /\ (force = true \/ is_equiv (Some (heap s i)) (option_map (heap s) (lastrep s)) = false))) in
  (announced -> lastrep s' = Some i /\ exists l, log s' = (log s ++ ESched i :: l)%list) /\
  (~ announced -> lastrep s' = lastrep s /\ log s' = log s).
Proof.
  intros ncb s i other np force s' better repeated announced.
  assert (RC : forall t pb, lastrep (run_callbacks ncb t i pb) = lastrep t /\ exists l, log (run_callbacks ncb t i pb) = (log t ++ ESched i :: l)%list).
  { intros t pb. unfold run_callbacks. cbn [inprog emit set_sched]. destruct (inprog t); cbn [lastrep log emit set_sched]; [split; eauto|].
    unfold while_loop. cbn [aborted set_inprog emit set_sched sched truthy].
    destruct (aborted t); [cbn; split; eauto|]. cbn [andb].
    destruct (ncb =? 0); [cbn; split; eauto|]. unfold call_cb. cbn [lastrep log set_runs emit set_sched set_inprog]. rewrite <- app_assoc. split; [reflexivity|eexists; reflexivity]. }
  assert (NBest :
    ((~ repeated /\ (force = true \/ (better /\ is_equiv (Some (heap s i)) (option_map (heap s) (lastrep s)) = false))) ->
       lastrep (new_best ncb s i force) = Some i /\ exists l, log (new_best ncb s i force) = (log s ++ ESched i :: l)%list) /\
    (~ (~ repeated /\ (force = true \/ (better /\ is_equiv (Some (heap s i)) (option_map (heap s) (lastrep s)) = false))) ->
       lastrep (new_best ncb s i force) = lastrep s /\ log (new_best ncb s i force) = log s)).
  { unfold new_best. set (isB := match best s with None => true | Some b => ind_lt (heap s i) (heap s b) end).
    assert (Q : isB = true <-> better). { unfold isB, better. destruct (best s); split; auto. }
    set (t := if isB then set_best s (Some i) else s).
    assert (T : heap t = heap s /\ lastrep t = lastrep s /\ log t = log s) by (unfold t; destruct isB; auto). destruct T as (T1 & T2 & T3).
    rewrite T1, T2.
    assert (R : truthy (heap s) (lastrep s) && eq_opt (heap s) i (lastrep s) = true <-> repeated).
    { unfold truthy, eq_opt, repeated. destruct (lastrep s) as [l|]; [|split; [discriminate|intros (l & E & _); discriminate]].
      rewrite andb_true_iff. split; [intros [A B]; exists l; auto|intros (l' & E & A & B); injection E as <-; auto]. }
    destruct (truthy (heap s) (lastrep s) && eq_opt (heap s) i (lastrep s)) eqn:E1.
    { split; [intros [A _]; exfalso; apply A; now apply R|intros _; auto]. }
    assert (NR : ~ repeated) by (intros X; apply R in X; congruence).
    set (eqv := is_equiv (Some (heap s i)) (option_map (heap s) (lastrep s))) in *.
    assert (G : forall x, (x = true <-> force = true \/ (better /\ eqv = false)) ->
      ((~ repeated /\ (force = true \/ (better /\ eqv = false))) ->
        lastrep (if x : bool then run_callbacks ncb (set_lastrep t (Some i)) i (best (set_lastrep t (Some i))) else t) = Some i /\
        exists l, log (if x : bool then run_callbacks ncb (set_lastrep t (Some i)) i (best (set_lastrep t (Some i))) else t) = (log s ++ ESched i :: l)%list) /\
      (~ (~ repeated /\ (force = true \/ (better /\ eqv = false))) ->
        lastrep (if x : bool then run_callbacks ncb (set_lastrep t (Some i)) i (best (set_lastrep t (Some i))) else t) = lastrep s /\
        log (if x : bool then run_callbacks ncb (set_lastrep t (Some i)) i (best (set_lastrep t (Some i))) else t) = log s)).
    { intros x X. destruct x.
      - split; [|intros A; exfalso; apply A; split; auto; now apply X]. intros _.
        destruct (RC (set_lastrep t (Some i)) (best (set_lastrep t (Some i)))) as [L1 L2]. rewrite L1. cbn [log set_lastrep] in L2. rewrite T3 in L2. auto.
      - split; [intros [_ A]; apply X in A; discriminate|intros _; auto]. }
    apply G. destruct force; [tauto|]. destruct isB; cbn [negb].
    - destruct eqv; cbn [negb]; split; try tauto; try discriminate. intros [X|[_ X]]; discriminate.
    - split; [discriminate|]. intros [X|[X _]]; [discriminate|]. apply Q in X. discriminate. }
  destruct NBest as [N1 N2].
  assert (K : s' = match other with
    | None => if ind_bool (heap s i) then (if match best s with None => true | Some b => ind_lt (heap s i) (heap s b) || force end then new_best ncb s i force else s) else s
    | Some _ => if match best s with None => true | Some b => ind_lt (heap s i) (heap s b) end then new_best ncb s i force else s
    end).
  { unfold s'. cbn [rep_step]. unfold rep_call. destruct other as [o|].
    - destruct (msg_ratio (heap s o) (heap s i) "!") as [rir sym]. destruct (match best s with None => true | Some b => _ end); reflexivity.
    - destruct (ind_bool (heap s i)); cbn [negb]; [|reflexivity]. destruct (best s) as [b|]; [|reflexivity]. destruct (_ || force); reflexivity. }
  rewrite K. clear K s'. unfold announced. clear announced.
  assert (Q : match best s with None => true | Some b => ind_lt (heap s i) (heap s b) end = true <-> better). { unfold better. destruct (best s); split; auto. }
  destruct other as [o|].
  - destruct (match best s with None => true | Some b => ind_lt (heap s i) (heap s b) end).
    + assert (B : better) by now apply Q. split.
      * intros (_ & A & [[A1 _]|A1]); [discriminate|]. apply N1. split; auto. tauto.
      * intros A. apply N2. intros [A1 A2]. apply A. split; [discriminate|]. split; auto. right. split; auto. tauto.
    + split; [|auto]. intros (_ & A & [[A1 _]|[A1 _]]); [discriminate|]. apply Q in A1. discriminate.
  - destruct (ind_bool (heap s i)) eqn:IB.
    + assert (Q2 : match best s with None => true | Some b => ind_lt (heap s i) (heap s b) || force end = true <-> better \/ force = true).
      { unfold better. destruct (best s); [apply orb_true_iff|tauto]. }
      destruct (match best s with None => true | Some b => ind_lt (heap s i) (heap s b) || force end).
      * split.
        -- intros (_ & A & A1). apply N1. tauto.
        -- intros A. apply N2. intros [A1 A2]. apply A. split; auto. split; auto. tauto.
      * assert (X : ~ (better \/ force = true)) by (intros X; apply Q2 in X; discriminate). split; [|auto]. intros (_ & _ & A). exfalso. tauto.
    + split; [|auto]. intros (A & _). specialize (A eq_refl). discriminate.
Qed.
Print Assumptions C45_when.
(** announced: forced though not better; better; a challenger that is better.
    Not announced: not better; equivalent; the same again *)
Example C45_when_ex : let h := ex_h [ex_i 0 5; ex_i 1 7; ex_i 2 3] in
  let sc es := flat_map (fun e => match e with ESched i => [i] | _ => [] end) (log (rep_exec 1 (r_init h) es)) in
  sc [RCall 0 None false false; RCall 1 None false false; RCall 2 (Some 0) false false; RCall 2 None false true] = [0; 2] /\
  sc [RCall 0 None false false; RCall 1 None false true] = [0; 1].
Proof. split; vm_compute; reflexivity. Qed.
(** when no run is in progress and there was no abort, the last individual
    announced has been given to all callbacks, unless one equal to it (same
    SSE, same values) was, as the last thing *)
Theorem C45_last : forall ncb h es i, let s := rep_exec ncb (r_init h) es in
  runs s = [] -> aborted s = false -> lastrep s = Some i -> 0 < ncb ->
  exists pre j, called (log s) = (pre ++ map (fun k => (k, j)) (seq 0 ncb))%list /\
    (j = i \/ (ind_bool (heap s j) = true /\ ind_eq (heap s i) (heap s j) = true)).
Proof.
  intros ncb h es i s R A L N. assert (I := exec_inv ncb es _ (inv_init ncb h)). fold s in I. unfold inv, after in I. rewrite R in I.
  assert (LI : last_inv s) by (apply exec_last; reflexivity). unfold last_inv in LI. rewrite L in LI.
  destruct I as [(gs & CA & _ & _ & D & _ & _) _]. cbn [option_map olist] in *. rewrite app_nil_r in CA. specialize (D A). rewrite <- LI in D.
  destruct (sched s); [destruct D as [_ D]; congruence|]. destruct D as [D|(j & J & D)]; [lia|]. unfold last_opt in J. destruct (rev gs) as [|g gs'] eqn:E; [discriminate|].
  injection J as ->. apply (f_equal (@rev _)) in E. rewrite rev_involutive in E. simpl in E. subst gs.
  exists (concat (map group (rev gs'))), j. split; auto. unfold called. unfold calls in CA. rewrite CA. apply concat_snoc.
Qed.
Print Assumptions C45_last.
Example C45_ex : let h := ex_h [ex_i 0 50; ex_i 1 30; ex_i 2 10] in
  let es := [RCall 0 None false false; RDone 0 CbNone; RCall 1 None false false; RCall 2 None false false; RDone 0 CbNone; RDone 0 CbNone; RDone 0 CbNone] in
  let s := rep_exec 2 (r_init h) es in
  runs s = [] /\ aborted s = false /\ lastrep s = Some 2 /\ called (log s) = [(0, 0); (1, 0); (0, 2); (1, 2)].
Proof. repeat split; vm_compute; reflexivity. Qed.
(** an individual that is "equivalent" to the last reported one becomes the
    best without ever being given to a callback, although the docstring of
    newBest says the runs ensure that the best individual has been *)
Theorem C45_best_reported_refuted : exists h es, let s := rep_exec 1 (r_init h) es in
  runs s = [] /\ aborted s = false /\ best s = Some 1 /\ ind_lt (heap s 1) (heap s 0) = true /\ called (log s) = [(0, 0)].
Proof.
  exists (ex_h [ex_i 0 100; ex_i 1 99]), [RCall 0 None false false; RDone 0 CbNone; RCall 1 None false false]. repeat split; vm_compute; reflexivity.
Qed.
Print Assumptions C45_best_reported_refuted.
(** an exception of the complaintCallback ends the reporting for good:
    cbrInProgress stays True and no callback is ever called again *)
Theorem C45_complaint_error_refuted : forall ncb h es n i k pb es',
  let s := rep_exec ncb (r_init h) es in nth_error (runs s) n = Some (mkRun i k pb PComplaint) ->
  let s' := rep_exec ncb (rep_step ncb s (RComplained n false)) es' in
  inprog s' = true /\ called (log s') = called (log s).
Proof.
  intros ncb h es n i k pb es' s E s'. assert (I := exec_inv ncb es _ (inv_init ncb h)). fold s in I. unfold inv in I.
  destruct (runs s) as [|r [|]] eqn:R; [destruct n; discriminate| |destruct I]. destruct n as [|[|]]; try discriminate. injection E as ->.
  assert (D : dead_inv (rep_step ncb s (RComplained 0 false)) /\ called (log (rep_step ncb s (RComplained 0 false))) = called (log s)).
  { cbn [rep_step]. rewrite R. cbn [nth_error]. unfold replace_run. rewrite R. split; [|reflexivity]. split; [apply I|]. exact Logic.I. }
  destruct D as [D1 D2]. destruct (exec_dead ncb es' _ D1) as [[A _] B]. subst s'. split; [exact A|]. rewrite <- D2. exact B.
Qed.
Print Assumptions C45_complaint_error_refuted.
Example C45_complaint_error_ex : let h := ex_h [ex_i 0 50; ex_i 1 30] in
  nth_error (runs (rep_exec 2 (r_init h) [RCall 0 None false false; RDone 0 CbComplains])) 0 = Some (mkRun 0 0 (Some 0) PComplaint).
Proof. vm_compute. reflexivity. Qed.

(** ** C46 *)
(** the blacklisted individual ranks last *)
Theorem C46_blacklisted : forall ncb s n i k pb, nth_error (runs s) n = Some (mkRun i k pb PComplaint) ->
  let s' := rep_step ncb s (RComplained n true) in
  ind_SSE (heap s' i) = finf /\ ivalues (heap s' i) = ivalues (heap s i) /\ (forall j, j <> i -> heap s' j = heap s j) /\
  forall x, ind_lt (heap s' i) x = false /\ (isfin (ind_SSE x) = true -> ind_lt x (heap s' i) = true).
Proof.
  intros ncb s n i k pb E s'. assert (H : heap s' = heap (r_blacklist s i)).
  { subst s'. cbn [rep_step]. rewrite E. match goal with |- context [for_loop ncb ?t i (S k) pb] => set (s1 := t) end.
    destruct (for_frame ncb s1 i (S k) pb) as (F & _). destruct (for_loop ncb s1 i (S k) pb). cbn [fst replace_run set_runs heap] in *. rewrite F. subst s1.
    match goal with |- context [if ?c then _ else _] => destruct c end; reflexivity. }
  assert (Hi : heap s' i = ind_blacklist (heap s i)) by (rewrite H; cbn [r_blacklist heap]; now rewrite Nat.eqb_refl).
  assert (SI : ind_SSE (heap s' i) = finf). { rewrite Hi. unfold ind_SSE, ind_blacklist, ind_setSSE. cbn [istored]. destruct (fltb finf fzero); reflexivity. }
  split; auto. split; [now rewrite Hi|]. split.
  - intros j J. rewrite H. cbn [r_blacklist heap]. destruct (Nat.eqb_spec j i); [contradiction|reflexivity].
  - intros x. split; [apply bogus_not_lt; now rewrite SI|]. intros F. unfold ind_lt. rewrite !float_SSE, SI. apply fltb_spec. split; [now apply nan_fin|]. split; auto.
    assert (B := fin_bound (ind_SSE x)). rewrite key_fin by auto. change (key finf) with big. lra.
Qed.
Print Assumptions C46_blacklisted.
(** an individual [i] better than the best [q] is reported when no run is in
    progress, and the first callback complains: afterwards the best is [i],
    blacklisted, not [q], which is still there; and then any finite [j] that is
    reported, even one worse than [q], is announced as the new best *)
Theorem C46_best_lost_refuted : forall ncb s q i j np np', 0 < ncb ->
  inprog s = false -> runs s = [] -> aborted s = false -> best s = Some q ->
  ind_bool (heap s i) = true -> ind_lt (heap s i) (heap s q) = true ->
  (truthy (heap s) (lastrep s) = true -> eq_opt (heap s) i (lastrep s) = false) ->
  is_equiv (Some (heap s i)) (option_map (heap s) (lastrep s)) = false ->
  j <> i -> ind_bool (heap s j) = true -> isfin (ind_SSE (heap s j)) = true ->
  let s1 := rep_exec ncb s [RCall i None np false; RDone 0 CbComplains; RComplained 0 true] in
  best s1 = Some i /\ ind_SSE (heap s1 i) = finf /\ q <> i /\ heap s1 q = heap s q /\
  best (rep_step ncb s1 (RCall j None np' false)) = Some j.
Proof.
  intros ncb s q i j np np' N IP R A B Bi L T Q J Bj Fj s1.
  assert (E1 : exists t, rep_step ncb s (RCall i None np false) = t /\ runs t = [mkRun i 0 (Some i) PCallback] /\ heap t = heap s /\ aborted t = false /\ best t = Some i).
  { eexists. split; [reflexivity|]. cbn [rep_step rep_call]. rewrite Bi, B, L. cbn [negb orb fst]. unfold new_best. rewrite B, L. cbv zeta. cbn [set_best heap lastrep best negb].
    replace (truthy (heap s) (lastrep s) && eq_opt (heap s) i (lastrep s)) with false by (destruct (truthy _ _); auto; now rewrite T).
    rewrite Q. cbn [negb]. unfold run_callbacks. cbv zeta. cbn [emit set_sched set_lastrep set_best inprog]. rewrite IP. unfold while_loop. cbn [emit set_sched set_lastrep set_best set_inprog aborted sched]. rewrite A.
    cbn [truthy andb]. destruct (Nat.eqb_spec ncb 0); [lia|]. unfold call_cb. cbn [emit set_sched set_lastrep set_best set_inprog set_runs runs heap aborted best]. rewrite R. auto. }
  destruct E1 as (t & E1 & Rt & Ht & At & Bt).
  assert (E2 : exists u, rep_step ncb t (RDone 0 CbComplains) = u /\ runs u = [mkRun i 0 (Some i) PComplaint] /\ heap u = heap s /\ aborted u = false /\ best u = Some i).
  { eexists. split; [reflexivity|]. cbn [rep_step]. rewrite Rt. cbn [nth_error]. rewrite Ht, Bi, At. cbn [negb andb]. unfold replace_run. cbn [emit set_runs runs heap aborted best]. rewrite Rt, Ht, At, Bt. auto. }
  destruct E2 as (u & E2 & Ru & Hu & Au & Bu).
  assert (ES : s1 = rep_step ncb u (RComplained 0 true)) by (subst s1; cbn [rep_exec]; now rewrite E1, E2).
  destruct (C46_blacklisted ncb u 0 i 0 (Some i)) as (X1 & X2 & X3 & X4); [now rewrite Ru|]. cbv zeta in *. rewrite <- ES in *. rewrite Hu in *.
  assert (BB : best s1 = Some i).
  { rewrite ES. cbn [rep_step]. rewrite Ru. cbn [nth_error]. match goal with |- context [for_loop ncb ?v i 1 (Some i)] => set (s2 := v) end.
    destruct (for_frame ncb s2 i 1 (Some i)) as (_ & F & _). destruct (for_loop ncb s2 i 1 (Some i)). cbn [fst replace_run set_runs best] in *. rewrite F. subst s2.
    match goal with |- context [if ?c then _ else _] => destruct c end; [reflexivity|exact Bu]. }
  split; auto. split; auto. assert (QI : q <> i). { intros ->. unfold ind_lt in L. rewrite fltb_irrefl in L. discriminate. }
  split; auto. split; [now apply X3|]. destruct (X4 (heap s1 j)) as [_ X5]. rewrite (X3 j J) in X5.
  destruct (call_frame ncb s1 j None np' false) as (_ & C & _). cbn [rep_step]. rewrite C, BB. cbn [counts]. rewrite (X3 j J), Bj. cbn [fold_left upd_best]. rewrite (X3 j J). now rewrite X5.
Qed.
Print Assumptions C46_best_lost_refuted.
(** the hypotheses, with [j] worse than [q] *)
Example C46_ex : let s := rep_exec 2 (r_init (ex_h [ex_i 0 50; ex_i 1 30; ex_i 2 90])) [RCall 0 None false false; RDone 0 CbNone; RDone 0 CbNone] in
  inprog s = false /\ runs s = [] /\ aborted s = false /\ best s = Some 0 /\ ind_bool (heap s 1) = true /\
  ind_lt (heap s 1) (heap s 0) = true /\ eq_opt (heap s) 1 (lastrep s) = false /\
  is_equiv (Some (heap s 1)) (option_map (heap s) (lastrep s)) = false /\ ind_bool (heap s 2) = true /\ isfin (ind_SSE (heap s 2)) = true /\
  ind_lt (heap s 0) (heap s 2) = true.
Proof. repeat split; vm_compute; reflexivity. Qed.
(** what iPrevBest does: if the complaint is about [i], reported while the run
    started for [p] was in progress, and [i] is still the best, then [p]
    becomes the best again, being finite *)
Theorem C46_restored : forall ncb s n i k p, nth_error (runs s) n = Some (mkRun i k (Some p) PComplaint) ->
  best s = Some i -> p <> i -> ind_bool (heap s p) = true -> isfin (ind_SSE (heap s p)) = true ->
  best (rep_step ncb s (RComplained n true)) = Some p.
Proof.
  intros ncb s n i k p E B P Bp Fp. destruct (C46_blacklisted ncb s n i k (Some p) E) as (X1 & X2 & X3 & X4). destruct (X4 (heap s p)) as [_ X5]. specialize (X5 Fp).
  cbn [rep_step]. rewrite E. match goal with |- context [for_loop ncb ?v i (S k) (Some p)] => set (s2 := v) end.
  destruct (for_frame ncb s2 i (S k) (Some p)) as (_ & F & _). destruct (for_loop ncb s2 i (S k) (Some p)). cbn [fst replace_run set_runs best] in *. rewrite F. subst s2.
  cbn [r_blacklist heap best truthy lt_best]. rewrite B. cbn [lt_best]. destruct (Nat.eqb_spec p i); [contradiction|]. rewrite Nat.eqb_refl, Bp.
  assert (Y : ind_lt (heap s p) (ind_blacklist (heap s i)) = true).
  { unfold ind_lt. rewrite !float_SSE. apply fltb_spec. split; [now apply nan_fin|]. 
    assert (S : ind_SSE (ind_blacklist (heap s i)) = finf) by (unfold ind_SSE, ind_blacklist, ind_setSSE; cbn [istored]; destruct (fltb finf fzero); reflexivity).
    rewrite S. split; auto. rewrite key_fin by auto. change (key finf) with big. assert (b := fin_bound (ind_SSE (heap s p))). lra. }
  rewrite Y. reflexivity.
Qed.
Print Assumptions C46_restored.
Example C46_restored_ex : let s := rep_exec 1 (r_init (ex_h [ex_i 0 50; ex_i 1 30])) [RCall 0 None false false; RCall 1 None false false; RDone 0 CbNone; RDone 0 CbComplains] in
  nth_error (runs s) 0 = Some (mkRun 1 0 (Some 0) PComplaint) /\ best s = Some 1 /\ ind_bool (heap s 0) = true /\ isfin (ind_SSE (heap s 0)) = true.
Proof. repeat split; vm_compute; reflexivity. Qed.
