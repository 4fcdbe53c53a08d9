(** * Property C105: the record dropped from a full history is one of a closest pair
    (ade/history.py:671-740, 1059-1064) *)
From Coq Require Import List Bool Arith ZArith Lia Reals Lra Permutation.
From Flocq Require Import Core BinarySingleNaN.
From Verif Require Import Flt FltMore Py HistModel HistProofs HistProps PairModel.
Import ListNotations.
Local Open Scope nat_scope.

#[local] Arguments fadd : simpl never.
#[local] Arguments fsub : simpl never.
#[local] Arguments fmul : simpl never.
#[local] Arguments fdiv : simpl never.

(** ** np.argmin *)
Lemma argmin_from_spec : forall (D : nat -> f64) n best i, best < i -> isnan (D best) = false ->
  (forall j, j < i -> isnan (D j) = false) ->
  (forall j, j < i -> fleb (D best) (D j) = true) -> (forall j, j < best -> fltb (D best) (D j) = true) ->
  (forall j, j < i + n -> isnan (D j) = false) ->
  let m := argmin_from D best i n in
  m < i + n /\ (forall j, j < i + n -> fleb (D m) (D j) = true) /\ (forall j, j < m -> fltb (D m) (D j) = true).
Proof.
  induction n as [|n IH]; intros best i Lt Nb Ni H1 H2 Na; cbn [argmin_from].
  - rewrite Nat.add_0_r. auto.
  - rewrite Nb. assert (Di : isnan (D i) = false) by (apply Na; lia). rewrite Di. cbn [orb].
    destruct (fltb (D i) (D best)) eqn:E; (rewrite <- Nat.add_succ_comm in *; apply IH; auto).
    + intros j Hj. destruct (Nat.eq_dec j i) as [->|]; auto. apply Ni; lia.
    + intros j Hj. destruct (Nat.eq_dec j i) as [->|]; [now apply fleb_refl|].
      apply fltb_fleb. eapply fltb_fleb_trans; eauto. apply H1; lia.
    + intros j Hj. eapply fltb_fleb_trans; eauto.
    + intros j Hj. destruct (Nat.eq_dec j i) as [->|]; auto. apply Ni; lia.
    + intros j Hj. destruct (Nat.eq_dec j i) as [->|]; [|apply H1; lia].
      destruct (fleb_total (D best) (D i)) as [X|X]; auto. congruence.
Qed.
Lemma argmin_spec : forall (D : nat -> f64) n, 0 < n -> (forall j, j < n -> isnan (D j) = false) ->
  let m := argmin D n in
  m < n /\ (forall j, j < n -> fleb (D m) (D j) = true) /\ (forall j, j < m -> fltb (D m) (D j) = true).
Proof.
  intros D n H Na. unfold argmin. assert (P := argmin_from_spec D (n - 1) 0 1).
  replace (1 + (n - 1)) with n in P by lia. apply P; auto.
  - intros j Hj. apply Na; lia.
  - intros j Hj. replace j with 0 by lia. apply fleb_refl. now apply Na.
  - intros j Hj. lia.
Qed.
Lemma argmin_from_nan : forall (D : nat -> f64) n best i, best < i ->
  (forall j, j < i -> isnan (D j) = true -> isnan (D best) = true) ->
  (exists j, j < i + n /\ isnan (D j) = true) -> isnan (D (argmin_from D best i n)) = true.
Proof.
  induction n as [|n IH]; intros best i Lt H1 (j & Hj & Nj); cbn [argmin_from].
  - apply (H1 j); auto. lia.
  - destruct (isnan (D best)) eqn:E; auto. destruct (isnan (D i)) eqn:Ei; cbn [orb].
    + apply IH; [lia| |]; auto. exists i. split; [lia|auto].
    + assert (Q : exists j, j < S i + n /\ isnan (D j) = true) by (exists j; split; [lia|auto]).
      destruct (fltb (D i) (D best)); apply IH; auto; intros k Hk Nk; exfalso;
      (destruct (Nat.eq_dec k i) as [->|]; [congruence|]; assert (Z := H1 k ltac:(lia) Nk); congruence).
Qed.
Lemma argmin_nan : forall (D : nat -> f64) n, (exists j, j < n /\ isnan (D j) = true) -> isnan (D (argmin D n)) = true.
Proof.
  intros D n (j & Hj & N). unfold argmin. apply argmin_from_nan; auto.
  - intros k Hk. replace k with 0 by lia. auto.
  - exists j. split; auto. lia.
Qed.

(** ** the candidates *)
(** the pairs examined: all, or the given number of random ones (history.py:690-696) *)
Definition candidates (Np : nat) (c : cpf) (o : orc) : option (list (nat * nat)) :=
  if length (cK c) * (length (cK c) - 1) <? 2 * Np then Some (pairs_all (cK c))
  else pairs_sampled (cK c) (draws o) (calls o) 0 Np.
Lemma call_candidates : forall Np c o r, NoDup (cK c) -> 0 < Np -> 2 <= length (cK c) -> cpf_call Np c o = Some (Ok r) ->
  exists l, candidates Np c o = Some l /\ 0 < length l /\ r = fst (nth (argmin (dist o l) (length l)) l (0, 0)) /\
    forall a b, In (a, b) l -> In a (cK c) /\ In b (cK c) /\ a < b.
Proof.
  intros Np c o r ND HN H2 E. unfold cpf_call in E. destruct (Nat.eqb_spec (length (cK c)) 1); [lia|].
  change (if length (cK c) * (length (cK c) - 1) <? 2 * Np then Some (pairs_all (cK c))
          else pairs_sampled (cK c) (draws o) (calls o) 0 Np) with (candidates Np c o) in E.
  destruct (candidates Np c o) as [l|] eqn:C; [|discriminate]. exists l. split; auto.
  destruct l as [|p l]; [discriminate|]. injection E as <-. split; [simpl; lia|]. split; [reflexivity|].
  intros a b I. unfold candidates in C. destruct (_ <? _).
  - injection C as C. rewrite <- C in I. now apply in_pairs_all.
  - apply (pairs_sampled_spec _ _ _ _ _ _ C); auto. destruct (cK c); [simpl in H2; lia|discriminate].
Qed.

Section P.
Variable var : list f64 -> f64.
Variable order : nat -> tree.
Variable npexp : f64 -> f64.
Notation orcX := (fun X nc c dr ca => pair_orc var order npexp X nc c dr ca).

(** ** which pair *)
(** with few enough rows, no pair of active rows is closer than the one of which the
    first row is chosen *)
Theorem C105_closest : forall X nc Np c dr ca r, NoDup (cK c) -> 2 <= length (cK c) ->
  length (cK c) * (length (cK c) - 1) < 2 * Np ->
  let D := fun a b => pdist order npexp X (scaling var X (cK c) nc) (cKn c) (length (pairs_all (cK c))) (a, b) in
  (forall a b, In a (cK c) -> In b (cK c) -> a < b -> isnan (D a b) = false) ->
  cpf_call Np c (pair_orc var order npexp X nc c dr ca) = Some (Ok r) ->
  exists r', In r (cK c) /\ In r' (cK c) /\ r < r' /\
    forall a b, In a (cK c) -> In b (cK c) -> a < b -> fleb (D r r') (D a b) = true.
Proof.
  intros X nc Np c dr ca r ND H2 Few D NN E.
  destruct (call_candidates Np c _ r ND ltac:(lia) H2 E) as (l & C & Ln & -> & Cl).
  unfold candidates in C. replace (_ <? _) with true in C by (symmetry; apply Nat.ltb_lt; auto). injection C as C.
  set (o := pair_orc var order npexp X nc c dr ca).
  assert (Dj : forall j, dist o l j = D (fst (nth j l (0, 0))) (snd (nth j l (0, 0)))).
  { intros j. subst o D. cbn [pair_orc dist]. rewrite <- C. now destruct (nth j _ (0, 0)). }
  destruct (argmin_spec (dist o l) (length l) Ln) as (M1 & M2 & _).
  { intros j Hj. rewrite Dj. assert (I := nth_In l (0, 0) Hj). destruct (nth j l (0, 0)) as [a b].
    apply Cl in I. simpl. now apply NN. }
  fold o in E |- *. set (m := argmin (dist o l) (length l)) in *.
  assert (I := nth_In l (0, 0) M1). exists (snd (nth m l (0, 0))).
  assert (I2 : In (fst (nth m l (0, 0)), snd (nth m l (0, 0))) l) by now rewrite <- surjective_pairing.
  apply Cl in I2. split; [tauto|]. split; [tauto|]. split; [tauto|].
  intros a b Ha Hb Hab. assert (J : In (a, b) l) by (rewrite <- C; apply in_pairs_all; auto).
  destruct (In_nth l (a, b) (0, 0) J) as (j & Hj & Ej). assert (Q := M2 j Hj). rewrite !Dj, Ej in Q. exact Q.
Qed.
(** the distance that counts, spelled out for a history without rows that were never
    in the population: each column has its own variance, and the first one is the SSE *)
Theorem C105_columns : forall X nc c dr ca K1 j a b, cKn c = [] -> nth j K1 (0, 0) = (a, b) ->
  exists terms, length terms = nc /\
    (forall i, i < nc -> exists w d, nth i terms fzero = fmul (fmul d d) w /\
       d = fsub (nth i (X a) fzero) (nth i (X b) fzero) /\
       w = fdiv fone (fadd (var (map (fun k => nth i (X k) fzero) (cK c))) f1em20)) /\
    dist (pair_orc var order npexp X nc c dr ca) K1 j =
      fdiv (tsum (order nc) terms) (fdiv (fadd (nth 0 (X a) fzero) (nth 0 (X b) fzero)) (fofZ 2)).
Proof.
  intros X nc c dr ca K1 j a b E Ej. set (S := scaling var X (cK c) nc).
  assert (LS : length S = nc) by (unfold S, scaling; now rewrite map_length, seq_length).
  exists (map (fun i => let d := fsub (nth i (X a) fzero) (nth i (X b) fzero) in fmul (fmul d d) (nth i S fzero)) (seq 0 nc)).
  split; [now rewrite map_length, seq_length|]. split.
  - intros i Hi. eexists _, _. split; [|split; reflexivity].
    rewrite (nth_indep _ fzero (let d := fsub (nth 0 (X a) fzero) (nth 0 (X b) fzero) in fmul (fmul d d) (nth 0 S fzero))) by (rewrite map_length, seq_length; lia).
    rewrite (map_nth (fun i => let d := fsub (nth i (X a) fzero) (nth i (X b) fzero) in fmul (fmul d d) (nth i S fzero))), seq_nth by lia. cbn [plus]. cbv zeta. f_equal.
    unfold S, scaling. rewrite (nth_indep _ fzero (fdiv fone (fadd (var (column X (cK c) 0)) f1em20))) by (rewrite map_length, seq_length; lia).
    rewrite (map_nth (fun j => fdiv fone (fadd (var (column X (cK c) j)) f1em20))), seq_nth by lia. reflexivity.
  - cbn [pair_orc dist]. rewrite Ej. unfold pdist. rewrite E. unfold scaled, sumsq, sse_of. fold S. rewrite LS. reflexivity.
Qed.
(** there is always an answer then *)
Theorem C105_answer : forall X nc Np c dr ca, NoDup (cK c) -> 1 <= length (cK c) ->
  length (cK c) * (length (cK c) - 1) < 2 * Np ->
  exists r, cpf_call Np c (pair_orc var order npexp X nc c dr ca) = Some (Ok r) /\ In r (cK c).
Proof.
  intros X nc Np c dr ca ND H1 Few. destruct (Nat.eq_dec Np 0) as [->|NZ]; [simpl in Few; lia|].
  assert (Q := cpf_call_spec Np c (pair_orc var order npexp X nc c dr ca) ND ltac:(lia)).
  destruct (cpf_call _ _ _) as [[r|e]|].
  - exists r. split; auto. apply Q.
  - destruct Q as [_ Q]. rewrite Q in H1. simpl in H1. lia.
  - lia.
Qed.
(** with more, none of the random pairs examined is closer *)
Theorem C105_closest_sampled : forall X nc Np c dr ca r, NoDup (cK c) -> 0 < Np ->
  2 * Np <= length (cK c) * (length (cK c) - 1) -> 2 <= length (cK c) ->
  let D := fun p => pdist order npexp X (scaling var X (cK c) nc) (cKn c) Np p in
  cpf_call Np c (pair_orc var order npexp X nc c dr ca) = Some (Ok r) ->
  exists l r', pairs_sampled (cK c) dr ca 0 Np = Some l /\ length l = Np /\ In (r, r') l /\
    (forall a b, In (a, b) l -> In a (cK c) /\ In b (cK c) /\ a < b) /\
    ((forall p, In p l -> isnan (D p) = false) -> forall p, In p l -> fleb (D (r, r')) (D p) = true).
Proof.
  intros X nc Np c dr ca r ND HN Many H2 D E.
  destruct (call_candidates Np c _ r ND HN H2 E) as (l & C & Ln & -> & Cl).
  unfold candidates in C. replace (_ <? _) with false in C by (symmetry; apply Nat.ltb_ge; auto).
  set (o := pair_orc var order npexp X nc c dr ca) in *. cbn [pair_orc draws calls o] in C.
  assert (LN : length l = Np).
  { apply (pairs_sampled_spec _ _ _ _ _ _ C). destruct (cK c); [simpl in H2; lia|discriminate]. }
  assert (ML := argmin_lt (dist o l) (length l) Ln). set (m := argmin (dist o l) (length l)) in *.
  assert (Dj : forall j, dist o l j = D (nth j l (0, 0))) by (intros j; subst o D; cbn [pair_orc dist]; now rewrite LN).
  exists l, (snd (nth m l (0, 0))). rewrite <- surjective_pairing. split; auto. split; auto. split; [now apply nth_In|]. split; auto.
  intros NN p Hp. destruct (argmin_spec (dist o l) (length l) Ln) as (M1 & M2 & _).
  { intros j Hj. rewrite Dj. apply NN. now apply nth_In. }
  destruct (In_nth l p (0, 0) Hp) as (j & Hj & <-). assert (Q := M2 j Hj). now rewrite !Dj in Q.
Qed.
(** a pair without a comparable distance is preferred to all others *)
Theorem C105_nan_first : forall X nc Np c dr ca r a b, NoDup (cK c) -> length (cK c) * (length (cK c) - 1) < 2 * Np ->
  let D := fun a b => pdist order npexp X (scaling var X (cK c) nc) (cKn c) (length (pairs_all (cK c))) (a, b) in
  In a (cK c) -> In b (cK c) -> a < b -> isnan (D a b) = true ->
  cpf_call Np c (pair_orc var order npexp X nc c dr ca) = Some (Ok r) ->
  exists r', In r' (cK c) /\ r < r' /\ isnan (D r r') = true.
Proof.
  intros X nc Np c dr ca r a b ND Few D Ha Hb Hab N E.
  assert (H2 : 2 <= length (cK c)) by (destruct (cK c) as [|x [|y l]]; simpl in *; [tauto|lia|lia]).
  destruct (call_candidates Np c _ r ND ltac:(lia) H2 E) as (l & C & Ln & -> & Cl).
  unfold candidates in C. replace (_ <? _) with true in C by (symmetry; apply Nat.ltb_lt; auto). injection C as C.
  set (o := pair_orc var order npexp X nc c dr ca) in *.
  assert (Dj : forall j, dist o l j = D (fst (nth j l (0, 0))) (snd (nth j l (0, 0)))).
  { intros j. subst o D. cbn [pair_orc dist]. rewrite <- C. now destruct (nth j _ (0, 0)). }
  assert (ML := argmin_lt (dist o l) (length l) Ln).
  assert (M := argmin_nan (dist o l) (length l)). set (m := argmin (dist o l) (length l)) in *.
  assert (I2 : In (fst (nth m l (0, 0)), snd (nth m l (0, 0))) l) by (rewrite <- surjective_pairing; now apply nth_In).
  apply Cl in I2. exists (snd (nth m l (0, 0))). split; [tauto|]. split; [tauto|].
  rewrite <- Dj. apply M. assert (J : In (a, b) l) by (rewrite <- C; apply in_pairs_all; auto).
  destruct (In_nth l (a, b) (0, 0) J) as (j & Hj & Ej). exists j. split; auto. rewrite Dj, Ej. exact N.
Qed.
(** of two rows the one with the lower number is chosen, whatever they hold *)
Theorem C105_two_rows : forall X nc Np c dr ca a b, cK c = [a; b] \/ cK c = [b; a] -> a < b -> 1 < Np ->
  cpf_call Np c (pair_orc var order npexp X nc c dr ca) = Some (Ok a).
Proof.
  intros X nc Np c dr ca a b H Lt HN.
  assert (ND : NoDup (cK c)) by (destruct H as [-> | ->]; repeat constructor; simpl; intuition lia).
  assert (L2 : length (cK c) = 2) by (destruct H as [-> | ->]; reflexivity).
  destruct (C105_answer X nc Np c dr ca ND) as (r & E & I); [lia|rewrite L2; lia|].
  destruct (call_candidates Np c _ r ND ltac:(lia) ltac:(lia) E) as (l & _ & Ln & Er & Cl).
  assert (ML := argmin_lt (dist (pair_orc var order npexp X nc c dr ca) l) (length l) Ln).
  assert (J := nth_In l (0, 0) ML). rewrite E, Er. destruct (nth _ l (0, 0)) as [x y]. apply Cl in J. simpl.
  destruct J as (J1 & J2 & J3). destruct H as [H|H]; rewrite H in J1, J2; simpl in J1, J2;
  (replace x with a; [reflexivity|]; intuition lia).
Qed.
End P.

(** ** when the distances can be compared *)
Local Open Scope R_scope.
Definition nn (x : f64) : Prop := isnan x = false /\ 0 <= key x.
Lemma nn_cases : forall x, nn x -> (isfin x = true /\ 0 <= B2R x) \/ x = finf.
Proof.
  intros x [N H]. destruct x as [s|[|]| |s m e E]; try discriminate.
  - left. split; [reflexivity|]. simpl. lra.
  - exfalso. simpl in H. assert (B := big_pos). lra.
  - now right.
  - left. split; [reflexivity|exact H].
Qed.
Lemma nn_fin : forall x, isfin x = true -> 0 <= B2R x -> nn x.
Proof. intros x F H. split; [now apply nan_fin|]. now rewrite key_fin. Qed.
Lemma nn_inf : nn finf.
Proof. split; [reflexivity|]. simpl. assert (B := big_pos). lra. Qed.
Lemma nn_zero : nn fzero. Proof. split; [reflexivity|]. simpl. lra. Qed.
Lemma nn_add : forall x y, nn x -> nn y -> nn (fadd x y).
Proof.
  intros x y Hx Hy. destruct (nn_cases x Hx) as [[Fx Px]| ->], (nn_cases y Hy) as [[Fy Py]| ->].
  - destruct (fadd_key x y Fx Fy) as [A B]. split; auto. rewrite B. apply crnd_ge0. lra.
  - destruct x as [s|s| |s m e E]; try discriminate; exact nn_inf.
  - destruct y as [s|s| |s m e E]; try discriminate; exact nn_inf.
  - exact nn_inf.
Qed.
Lemma nn_square : forall d, isnan d = false -> nn (fmul d d).
Proof.
  intros d N. destruct (isfin d) eqn:F.
  - destruct (fmul_key d d F F) as [A B]. split; auto. rewrite B. apply crnd_ge0. nra.
  - destruct d as [s|[|]| |s m e E]; try discriminate; exact nn_inf.
Qed.
Lemma nn_mul : forall x s, nn x -> isfin s = true -> 0 < B2R s -> nn (fmul x s).
Proof.
  intros x s Hx F P. destruct (nn_cases x Hx) as [[Fx Px]| ->].
  - destruct (fmul_key x s Fx F) as [A B]. split; auto. rewrite B. apply crnd_ge0. nra.
  - destruct s as [b|b| |[|] m e E]; try discriminate.
    + simpl in P. lra.
    + exfalso. assert (Q := F2R_lt_0 radix2 (Float radix2 (Z.neg m) e) eq_refl). simpl in P. simpl in Q. lra.
    + exact nn_inf.
Qed.
Lemma nn_div : forall x s, nn x -> isfin s = true -> 0 < B2R s -> nn (fdiv x s).
Proof.
  intros x s Hx F P. destruct (nn_cases x Hx) as [[Fx Px]| ->].
  - destruct (fdiv_key x s Fx F ltac:(lra)) as [A B]. split; auto. rewrite B. apply crnd_ge0.
    apply Rmult_le_pos; auto. left. now apply Rinv_0_lt_compat.
  - destruct s as [b|b| |[|] m e E]; try discriminate.
    + simpl in P. lra.
    + exfalso. assert (Q := F2R_lt_0 radix2 (Float radix2 (Z.neg m) e) eq_refl). simpl in P. simpl in Q. lra.
    + exact nn_inf.
Qed.
Lemma fin_lt_big : forall x, isnan x = false -> 0 <= key x < big -> isfin x = true.
Proof.
  intros x N [H1 H2]. destruct x as [s|[|]| |s m e E]; try discriminate; try reflexivity; simpl in *; assert (B := big_pos); lra.
Qed.
Lemma nn_tsum : forall t l, Forall nn l -> nn (tsum t l).
Proof.
  induction t as [k|a IHa b IHb]; intros l H; cbn [tsum].
  - destruct (Nat.lt_ge_cases k (length l)) as [L|L].
    + rewrite Forall_forall in H. apply H. now apply nth_In.
    + rewrite nth_overflow by auto. apply nn_zero.
  - apply nn_add; auto.
Qed.
(** the smallest positive number *)
Lemma pos_min : forall x : f64, 0 < B2R x -> bpow radix2 (-1074) <= B2R x.
Proof.
  intros x H. apply (generic_format_ge_bpow radix2 (SpecFloat.fexp 53 1024)); auto.
  - intros e. unfold SpecFloat.fexp, SpecFloat.emin. lia.
  - apply generic_format_B2R.
Qed.
Lemma big_gt : forall e, (e < 1024)%Z -> bpow radix2 e < big.
Proof. intros e H. now apply bpow_lt. Qed.

(** 1 / (v + 1E-20) for a variance v *)
Lemma f1em20_val : isfin f1em20 = true /\ bpow radix2 (-67) <= B2R f1em20 <= bpow radix2 (-66).
Proof.
  destruct (flit_val 6646139978924579 (-119)) as [A B]; [reflexivity|lia|]. split; [exact A|].
  unfold f1em20. rewrite B.
  replace (bpow radix2 (-67)) with (bpow radix2 52 * bpow radix2 (-119)) by (rewrite <- bpow_plus; reflexivity).
  replace (bpow radix2 (-66)) with (bpow radix2 53 * bpow radix2 (-119)) by (rewrite <- bpow_plus; reflexivity).
  assert (P := bpow_gt_0 radix2 (-119)).
  change (bpow radix2 52) with (IZR 4503599627370496). change (bpow radix2 53) with (IZR 9007199254740992).
  split; apply Rmult_le_compat_r; try lra; apply IZR_le; lia.
Qed.
Lemma scale_pos : forall v, isfin v = true -> 0 <= B2R v <= bpow radix2 1000 ->
  let s := fdiv fone (fadd v f1em20) in isfin s = true /\ 0 < B2R s.
Proof.
  intros v F [V0 V1]. destruct f1em20_val as (Fe & E0 & E1). destruct (fadd_key v f1em20 F Fe) as [N Kw].
  set (w := fadd v f1em20) in *. cbv zeta.
  assert (L1 : bpow radix2 (-67) <= key w).
  { rewrite Kw, <- (crnd_bpow (-67)) by lia. apply crnd_mono. lra. }
  assert (L2 : key w <= bpow radix2 1001).
  { rewrite Kw, <- (crnd_bpow 1001) by lia. apply crnd_mono.
    assert (Q : bpow radix2 (-66) <= bpow radix2 1000) by (apply bpow_le; lia).
    replace (bpow radix2 1001) with (2 * bpow radix2 1000) by (change 1001%Z with (1 + 1000)%Z; rewrite bpow_plus; simpl; lra). lra. }
  assert (P := bpow_gt_0 radix2 (-67)). assert (B := big_gt 1001 ltac:(lia)).
  assert (Fw : isfin w = true) by (apply fin_lt_big; auto; lra). rewrite key_fin in L1, L2 by auto.
  destruct (fofZ_val 1) as [F1 V]; [reflexivity|]. change (fofZ 1) with fone in *.
  destruct (fdiv_key fone w F1 Fw ltac:(lra)) as [N2 K2]. rewrite V in K2.
  assert (P2 := bpow_gt_0 radix2 (-1001)).
  assert (I1 : bpow radix2 (-1001) <= 1 / B2R w).
  { unfold Rdiv. rewrite Rmult_1_l. change (-1001)%Z with (Z.opp 1001). rewrite bpow_opp. apply Rinv_le; lra. }
  assert (I2 : 1 / B2R w <= bpow radix2 67).
  { unfold Rdiv. rewrite Rmult_1_l. rewrite <- (Rinv_inv (bpow radix2 67)).
    rewrite <- bpow_opp. change (Z.opp 67) with (-67)%Z. apply Rinv_le; [exact P|exact L1]. }
  apply crnd_mono in I1, I2. rewrite <- K2, crnd_bpow in I1, I2 by lia.
  assert (B2 := big_gt 67 ltac:(lia)).
  assert (Fs : isfin (fdiv fone w) = true) by (apply fin_lt_big; auto; lra).
  split; auto. rewrite key_fin in I1 by auto. lra.
Qed.
(** the mean of two positive SSEs *)
Lemma mean_pos : forall x y, isfin x = true -> isfin y = true -> 0 < B2R x <= bpow radix2 1000 -> 0 < B2R y <= bpow radix2 1000 ->
  let m := fdiv (fadd x y) (fofZ 2) in isfin m = true /\ 0 < B2R m.
Proof.
  intros x y Fx Fy [X0 X1] [Y0 Y1]. cbv zeta. destruct (fadd_key x y Fx Fy) as [N Kw]. set (w := fadd x y) in *.
  assert (Px := pos_min x X0). assert (Py := pos_min y Y0).
  assert (L1 : bpow radix2 (-1073) <= key w).
  { rewrite Kw, <- (crnd_bpow (-1073)) by lia. apply crnd_mono.
    replace (bpow radix2 (-1073)) with (2 * bpow radix2 (-1074)) by (change (-1073)%Z with (1 + -1074)%Z; rewrite bpow_plus; simpl; lra). lra. }
  assert (L2 : key w <= bpow radix2 1001).
  { rewrite Kw, <- (crnd_bpow 1001) by lia. apply crnd_mono.
    replace (bpow radix2 1001) with (2 * bpow radix2 1000) by (change 1001%Z with (1 + 1000)%Z; rewrite bpow_plus; simpl; lra). lra. }
  assert (P := bpow_gt_0 radix2 (-1073)). assert (B := big_gt 1001 ltac:(lia)).
  assert (Fw : isfin w = true) by (apply fin_lt_big; auto; lra). rewrite key_fin in L1, L2 by auto.
  destruct (fofZ_val 2) as [F2 V]; [reflexivity|].
  destruct (fdiv_key w (fofZ 2) Fw F2 ltac:(rewrite V; lra)) as [N2 K2]. rewrite V in K2.
  assert (I1 : bpow radix2 (-1074) <= B2R w / 2).
  { replace (bpow radix2 (-1073)) with (2 * bpow radix2 (-1074)) in L1 by (change (-1073)%Z with (1 + -1074)%Z; rewrite bpow_plus; simpl; lra). lra. }
  assert (I2 : B2R w / 2 <= bpow radix2 1001) by lra.
  apply crnd_mono in I1, I2. rewrite <- K2, crnd_bpow in I1, I2 by lia. assert (P4 := bpow_gt_0 radix2 (-1074)).
  assert (Fs : isfin (fdiv w (fofZ 2)) = true) by (apply fin_lt_big; auto; lra).
  split; auto. rewrite key_fin in I1 by auto. lra.
Qed.

(** rows of [nc] finite numbers, the first one, the SSE, positive *)
Definition row_ok (nc : nat) (row : list f64) : Prop :=
  length row = nc /\ (1 <= nc)%nat /\ Forall (fun x => isfin x = true) row /\ 0 < B2R (nth 0 row fzero) <= bpow radix2 1000.
Lemma row_fin : forall nc row j, row_ok nc row -> isfin (nth j row fzero) = true.
Proof.
  intros nc row j (L & _ & F & _). destruct (Nat.lt_ge_cases j (length row)) as [H|H].
  - rewrite Forall_forall in F. apply F. now apply nth_In.
  - now rewrite nth_overflow.
Qed.

Section Q.
Variable var : list f64 -> f64.
Variable order : nat -> tree.
Variable npexp : f64 -> f64.
(** what is asked of np.var for finite columns, and of np.exp *)
Definition var_ok (X : nat -> list f64) (K : list nat) (nc : nat) : Prop :=
  forall j, (j < nc)%nat -> isfin (var (column X K j)) = true /\ 0 <= B2R (var (column X K j)) <= bpow radix2 1000.
Definition exp_ok : Prop := forall x, isnan x = false -> key x <= 100 -> isfin (npexp x) = true /\ 0 <= B2R (npexp x) <= bpow radix2 1000.

Lemma scaling_pos : forall X K nc j, var_ok X K nc -> (j < nc)%nat ->
  isfin (nth j (scaling var X K nc) fzero) = true /\ 0 < B2R (nth j (scaling var X K nc) fzero).
Proof.
  intros X K nc j V Hj. unfold scaling.
  rewrite (nth_indep _ _ (fdiv fone (fadd (var (column X K 0)) f1em20))) by (now rewrite map_length, seq_length).
  rewrite (map_nth (fun j => fdiv fone (fadd (var (column X K j)) f1em20)) (seq 0 nc) 0%nat j), seq_nth by auto.
  destruct (V j Hj). now apply scale_pos.
Qed.
Lemma sumsq_nn : forall X K nc a b, var_ok X K nc -> row_ok nc (X a) -> row_ok nc (X b) -> nn (sumsq order X (scaling var X K nc) a b).
Proof.
  intros X K nc a b V Ra Rb. unfold sumsq. apply nn_tsum. apply Forall_forall. intros x Hx.
  apply in_map_iff in Hx. destruct Hx as (j & <- & Hj). apply in_seq in Hj.
  unfold scaling in Hj at 1. rewrite map_length, seq_length in Hj.
  destruct (scaling_pos X K nc j V ltac:(lia)) as [F P].
  apply nn_mul; auto. apply nn_square. apply fsub_key; eapply row_fin; eauto.
Qed.
Lemma scaled_nn : forall X K nc a b, var_ok X K nc -> row_ok nc (X a) -> row_ok nc (X b) -> nn (scaled order X (scaling var X K nc) a b).
Proof.
  intros X K nc a b V Ra Rb. unfold scaled, sse_of.
  destruct (mean_pos (nth 0 (X a) fzero) (nth 0 (X b) fzero)) as [F P];
    try (now eapply row_fin; eauto); try apply Ra; try apply Rb.
  apply nn_div; auto. now apply sumsq_nn.
Qed.
Lemma ffloor_val : forall x, isfin x = true -> isfin (ffloor x) = true /\ B2R (ffloor x) = IZR (Zfloor (B2R x)).
Proof.
  intros x F. unfold ffloor. destruct (Bnearbyint_correct 53 1024 Hmax64 mode_DN x) as (A & B & C).
  split; [unfold isfin; now rewrite B|]. rewrite A. unfold round, scaled_mantissa, cexp, FIX_exp, F2R. simpl. rewrite !Rmult_1_r. reflexivity.
Qed.
Lemma f0_4_val : isfin f0_4 = true /\ 0.3 < B2R f0_4 < 0.5.
Proof.
  destruct (flit_val 3602879701896397 (-53)) as [A B]; [reflexivity|lia|]. split; [exact A|].
  unfold f0_4. rewrite B. change (bpow radix2 (-53)) with (/ IZR 9007199254740992). lra.
Qed.
(** fewer rows never in the population than pairs: the argument of np.exp is always the same *)
Lemma penalty_arg : forall n len, (n < len)%nat -> (Z.of_nat len < 2^53)%Z ->
  kn_penalty npexp n len = fadd fone (npexp (fmul (fofZ 12) (fopp f0_4))).
Proof.
  intros n len H L. unfold kn_penalty.
  destruct (fofZ_val (Z.of_nat n)) as [F1 V1]; [lia|]. destruct (fofZ_val (Z.of_nat len)) as [F2 V2]; [lia|].
  assert (P : 0 < IZR (Z.of_nat len)) by (apply (IZR_lt 0); lia).
  assert (P1 : 0 <= IZR (Z.of_nat n)) by (apply (IZR_le 0); lia).
  destruct (fdiv_key _ _ F1 F2 ltac:(lra)) as [N K]. rewrite V1, V2 in K.
  set (q := fdiv _ _) in *.
  assert (Q0 : 0 <= key q) by (rewrite K; apply crnd_ge0; apply Rmult_le_pos; auto; left; now apply Rinv_0_lt_compat).
  assert (Q1 : key q < 1).
  { rewrite K. assert (U : IZR (Z.of_nat n) / IZR (Z.of_nat len) <= 1 - bpow radix2 (-53)).
    { apply Rmult_le_reg_r with (IZR (Z.of_nat len)); auto. unfold Rdiv. rewrite Rmult_assoc, Rinv_l by lra.
      assert (N1 : IZR (Z.of_nat n) <= IZR (Z.of_nat len) - 1) by (rewrite <- minus_IZR; apply IZR_le; lia).
      assert (N2 : IZR (Z.of_nat len) <= bpow radix2 53) by (change (bpow radix2 53) with (IZR (2^53)); apply IZR_le; lia).
      assert (N3 : bpow radix2 (-53) * IZR (Z.of_nat len) <= 1).
      { replace 1 with (bpow radix2 (-53) * bpow radix2 53) by (rewrite <- bpow_plus; reflexivity).
        apply Rmult_le_compat_l; auto. apply bpow_ge_0. }
      lra. }
    apply crnd_mono in U. eapply Rle_lt_trans; [exact U|].
    destruct (flit_val 9007199254740991 (-53)) as [Fl Vl]; [reflexivity|lia|].
    assert (W : 1 - bpow radix2 (-53) = B2R (flit 9007199254740991 (-53))).
    { rewrite Vl. change (bpow radix2 (-53)) with (/ IZR 9007199254740992). field. }
    rewrite W, crnd_B2R, <- W. assert (Z := bpow_gt_0 radix2 (-53)). lra. }
  assert (Fq : isfin q = true) by (apply fin_lt_big; auto; split; auto; assert (B := big_gt 0 ltac:(lia)); simpl in B; lra).
  rewrite key_fin in Q0, Q1 by auto. destruct (ffloor_val q Fq) as [Ff Vf].
  assert (Zf : Zfloor (B2R q) = 0%Z) by (apply Zfloor_imp; simpl; lra). rewrite Zf in Vf.
  destruct f0_4_val as [F4 V4]. destruct (fsub_key _ _ Ff F4) as [Ns Ks]. rewrite Vf in Ks.
  assert (Ko : key (fopp f0_4) = - B2R f0_4).
  { rewrite key_fin; [unfold fopp; now rewrite B2R_Bopp|]. unfold isfin, fopp. now rewrite is_finite_Bopp. }
  assert (No : isnan (fopp f0_4) = false) by (unfold isnan, fopp; rewrite is_nan_Bopp; now apply nan_fin).
  do 3 f_equal. apply key_inj; auto.
  - rewrite Ks, Ko. replace (IZR 0 - B2R f0_4) with (- B2R f0_4) by (simpl; ring). now rewrite crnd_opp, crnd_B2R.
  - rewrite Ks. replace (IZR 0 - B2R f0_4) with (- B2R f0_4) by (simpl; ring). rewrite crnd_opp, crnd_B2R. lra.
Qed.

(** at most two rows never in the population per pair: the penalty is a positive number *)
Lemma penalty_pos : forall n len, exp_ok -> (0 < len)%nat -> (n <= 2 * len)%nat -> (Z.of_nat len < 2^50)%Z ->
  isfin (kn_penalty npexp n len) = true /\ 0 < B2R (kn_penalty npexp n len).
Proof.
  intros n len Ex H0 H L. unfold kn_penalty.
  destruct (fofZ_val (Z.of_nat n)) as [F1 V1]; [lia|]. destruct (fofZ_val (Z.of_nat len)) as [F2 V2]; [lia|].
  assert (P : 0 < IZR (Z.of_nat len)) by (apply (IZR_lt 0); lia).
  assert (P1 : 0 <= IZR (Z.of_nat n)) by (apply (IZR_le 0); lia).
  destruct (fdiv_key _ _ F1 F2 ltac:(lra)) as [N K]. rewrite V1, V2 in K.
  set (q := fdiv _ _) in *.
  assert (Q0 : 0 <= key q) by (rewrite K; apply crnd_ge0; apply Rmult_le_pos; auto; left; now apply Rinv_0_lt_compat).
  assert (Q1 : key q <= 2).
  { assert (U : IZR (Z.of_nat n) / IZR (Z.of_nat len) <= bpow radix2 1).
    { apply Rmult_le_reg_r with (IZR (Z.of_nat len)); auto. unfold Rdiv. rewrite Rmult_assoc, Rinv_l by lra.
      rewrite Rmult_1_r. change (bpow radix2 1) with 2. rewrite <- mult_IZR. apply IZR_le. lia. }
    apply crnd_mono in U. rewrite crnd_bpow in U by lia. rewrite K. exact U. }
  assert (B3 := big_gt 5 ltac:(lia)). change (bpow radix2 5) with 32 in B3.
  assert (Fq : isfin q = true) by (apply fin_lt_big; auto; lra).
  rewrite key_fin in Q0, Q1 by auto. destruct (ffloor_val q Fq) as [Ff Vf].
  assert (Zf : (Zfloor (B2R q) <= 2)%Z) by (replace 2%Z with (Zfloor 2) by (rewrite (Zfloor_IZR 2); reflexivity); now apply Zfloor_le).
  assert (Zg : (0 <= Zfloor (B2R q))%Z) by (replace 0%Z with (Zfloor 0) by (rewrite (Zfloor_IZR 0); reflexivity); now apply Zfloor_le).
  apply IZR_le in Zf, Zg. rewrite <- Vf in Zf, Zg.
  destruct f0_4_val as [F4 V4]. destruct (fsub_key _ _ Ff F4) as [Ns Ks]. set (d := fsub _ _) in *.
  assert (D1 : - 1 <= key d <= 2).
  { rewrite Ks. split; [replace (-1) with (- crnd 1) by (rewrite crnd_1; lra); rewrite <- crnd_opp; apply crnd_mono; lra|].
    replace 2 with (crnd (bpow radix2 1)) by (rewrite crnd_bpow by lia; reflexivity). apply crnd_mono. change (bpow radix2 1) with 2. lra. }
  assert (Fd : isfin d = true).
  { destruct d as [s|[|]| |s m e E]; try discriminate; try reflexivity; simpl in D1; lra. }
  rewrite key_fin in D1 by auto. destruct (fofZ_val 12) as [F12 V12]; [reflexivity|].
  destruct (fmul_key (fofZ 12) d F12 Fd) as [Na Ka]. rewrite V12 in Ka.
  assert (A1 : key (fmul (fofZ 12) d) <= 100).
  { rewrite Ka. apply Rle_trans with (crnd (bpow radix2 5)); [apply crnd_mono; change (bpow radix2 5) with 32; lra|].
    rewrite crnd_bpow by lia. change (bpow radix2 5) with 32. lra. }
  destruct (Ex _ Na A1) as [Fe [E0 E1]]. set (x := npexp _) in *.
  destruct (fofZ_val 1) as [Fo Vo]; [reflexivity|]. change (fofZ 1) with fone in *.
  destruct (fadd_key fone x Fo Fe) as [Np Kp]. rewrite Vo in Kp.
  assert (L1 : 1 <= key (fadd fone x)) by (rewrite Kp; rewrite <- crnd_1 at 1; apply crnd_mono; lra).
  assert (L2 : key (fadd fone x) <= bpow radix2 1001).
  { rewrite Kp, <- (crnd_bpow 1001) by lia. apply crnd_mono.
    replace (bpow radix2 1001) with (2 * bpow radix2 1000) by (change 1001%Z with (1 + 1000)%Z; rewrite bpow_plus; simpl; lra).
    assert (Q := bpow_le radix2 0 1000 ltac:(lia)). simpl (bpow radix2 0) in Q. lra. }
  assert (B := big_gt 1001 ltac:(lia)).
  assert (Fp : isfin (fadd fone x) = true) by (apply fin_lt_big; auto; lra). split; auto.
  rewrite key_fin in L1 by auto. lra.
Qed.

(** *** C105: the distances are numbers, not below zero *)
Theorem C105_comparable : forall X nc c len a b, var_ok X (cK c) nc -> exp_ok -> row_ok nc (X a) -> row_ok nc (X b) ->
  (0 < len)%nat -> (length (cKn c) <= 2 * len)%nat -> (Z.of_nat len < 2^50)%Z ->
  let d := pdist order npexp X (scaling var X (cK c) nc) (cKn c) len (a, b) in isnan d = false /\ fleb fzero d = true.
Proof.
  intros X nc c len a b V Ex Ra Rb L0 L2 Lm. cbv zeta.
  assert (G : nn (pdist order npexp X (scaling var X (cK c) nc) (cKn c) len (a, b))).
  { unfold pdist. cbn [fst snd]. assert (S := scaled_nn X (cK c) nc a b V Ra Rb). destruct (cKn c) as [|k kn] eqn:E; auto.
    rewrite <- E in *. destruct (mem a (cKn c)).
    - destruct (penalty_pos (length (cKn c)) len Ex L0 L2 Lm). now apply nn_div.
    - destruct (fofZ_val 1) as [Fo Vo]; [reflexivity|]. change (fofZ 1) with fone in *. apply nn_div; auto. rewrite Vo. lra. }
  destruct G as [G1 G2]. split; auto. apply fleb_spec. split; [reflexivity|]. split; auto.
Qed.

(** ** equal rows *)
Definition zz (x : f64) : Prop := isfin x = true /\ B2R x = 0.
Lemma key_zz : forall x, isnan x = false -> key x = 0 -> zz x.
Proof. intros x N H. assert (B := big_pos). assert (F : isfin x = true) by (apply fin_lt_big; auto; lra). split; auto. now rewrite key_fin in H. Qed.
Lemma zz_add : forall x y, zz x -> zz y -> zz (fadd x y).
Proof. intros x y [Fx Vx] [Fy Vy]. destruct (fadd_key x y Fx Fy) as [A B]. apply key_zz; auto. rewrite B, Vx, Vy, Rplus_0_l. apply crnd_0. Qed.
Lemma zz_mul : forall x y, zz x -> isfin y = true -> zz (fmul x y).
Proof. intros x y [Fx Vx] Fy. destruct (fmul_key x y Fx Fy) as [A B]. apply key_zz; auto. rewrite B, Vx, Rmult_0_l. apply crnd_0. Qed.
Lemma zz_div : forall x y, zz x -> isfin y = true -> 0 < B2R y -> zz (fdiv x y).
Proof. intros x y [Fx Vx] Fy Py. destruct (fdiv_key x y Fx Fy ltac:(lra)) as [A B]. apply key_zz; auto. rewrite B, Vx. unfold Rdiv. rewrite Rmult_0_l. apply crnd_0. Qed.
Lemma zz_tsum : forall t l, Forall zz l -> zz (tsum t l).
Proof.
  induction t as [k|a IHa b IHb]; intros l H; cbn [tsum].
  - destruct (Nat.lt_ge_cases k (length l)) as [L|L].
    + rewrite Forall_forall in H. apply H. now apply nth_In.
    + rewrite nth_overflow by auto. split; reflexivity.
  - apply zz_add; auto.
Qed.
Lemma scaled_zz : forall X K nc a b, var_ok X K nc -> row_ok nc (X a) -> X b = X a -> zz (scaled order X (scaling var X K nc) a b).
Proof.
  intros X K nc a b V Ra Eb. unfold scaled, sse_of.
  destruct (mean_pos (nth 0 (X a) fzero) (nth 0 (X b) fzero)) as [F P]; rewrite ?Eb;
    try (now eapply row_fin; eauto); try apply Ra. rewrite Eb in F, P. apply zz_div; auto.
  unfold sumsq. apply zz_tsum. apply Forall_forall. intros x Hx.
  apply in_map_iff in Hx. destruct Hx as (j & <- & Hj). apply in_seq in Hj.
  unfold scaling in Hj at 1. rewrite map_length, seq_length in Hj.
  destruct (scaling_pos X K nc j V ltac:(lia)) as [Fs Ps]. rewrite Eb. assert (Fj := row_fin nc (X a) j Ra).
  destruct (fsub_key _ _ Fj Fj) as [N Kd].
  assert (Z : zz (fsub (nth j (X a) fzero) (nth j (X a) fzero))) by (apply key_zz; auto; rewrite Kd, Rminus_diag_eq by auto; apply crnd_0).
  apply zz_mul; auto. apply zz_mul; auto. apply Z.
Qed.
(** if two records are equal, the one dropped is at distance zero from another *)
Theorem C105_coincident : forall X nc Np c dr ca r a b, NoDup (cK c) -> NoDup (cKn c) -> incl (cKn c) (cK c) ->
  (length (cK c) * (length (cK c) - 1) < 2 * Np)%nat -> (Z.of_nat Np < 2^50)%Z ->
  var_ok X (cK c) nc -> exp_ok -> (forall k, In k (cK c) -> row_ok nc (X k)) ->
  In a (cK c) -> In b (cK c) -> (a < b)%nat -> X a = X b ->
  cpf_call Np c (pair_orc var order npexp X nc c dr ca) = Some (Ok r) ->
  exists r', In r' (cK c) /\ (r < r')%nat /\
    feqb (pdist order npexp X (scaling var X (cK c) nc) (cKn c) (length (pairs_all (cK c))) (r, r')) fzero = true.
Proof.
  intros X nc Np c dr ca r a b ND NDn Inc Few Big V Ex Rows Ha Hb Hab Eq E.
  assert (H2 : (2 <= length (cK c))%nat) by (destruct (cK c) as [|x [|y l]]; simpl in *; [tauto|lia|lia]).
  assert (PL := pairs_all_length _ ND). assert (Ln := NoDup_incl_length NDn Inc).
  assert (Cmp : forall x y, In x (cK c) -> In y (cK c) ->
    let d := pdist order npexp X (scaling var X (cK c) nc) (cKn c) (length (pairs_all (cK c))) (x, y) in isnan d = false /\ fleb fzero d = true).
  { intros x y Hx Hy. apply C105_comparable; auto; nia. }
  destruct (C105_closest var order npexp X nc Np c dr ca r ND H2 Few) as (r' & I1 & I2 & Lt & Min); auto.
  { intros x y Hx Hy _. now apply Cmp. }
  exists r'. split; auto. split; auto. destruct (Cmp r r' I1 I2) as [N G]. specialize (Min a b Ha Hb Hab).
  assert (Z : zz (pdist order npexp X (scaling var X (cK c) nc) (cKn c) (length (pairs_all (cK c))) (a, b))).
  { unfold pdist. cbn [fst snd]. assert (S := scaled_zz X (cK c) nc a b V (Rows a Ha) (eq_sym Eq)).
    destruct (cKn c) as [|k kn] eqn:En; auto. rewrite <- En in *. destruct (mem a (cKn c)).
    - destruct (penalty_pos (length (cKn c)) (length (pairs_all (cK c))) Ex) as [Fp Pp]; [nia|nia|nia|]. now apply zz_div.
    - destruct (fofZ_val 1) as [Fo Vo]; [reflexivity|]. change (fofZ 1) with fone in *. apply zz_div; auto. rewrite Vo. lra. }
  destruct Z as [Zf Zv]. apply fleb_spec in Min, G. apply feqb_spec. split; auto. split; [reflexivity|].
  destruct Min as (_ & _ & M). destruct G as (_ & _ & G). rewrite (key_fin _ Zf), Zv in M. change (key fzero) with 0 in *. lra.
Qed.

(** ** the penalty of records never in the population *)
(** it is the same however many of them there are: four rows or more, all pairs
    examined, two divisions of the rows into those never in the population and the others *)
Theorem C105_penalty_constant : forall X nc c Kn' a b, NoDup (cK c) -> NoDup (cKn c) -> NoDup Kn' -> incl (cKn c) (cK c) -> incl Kn' (cK c) ->
  (4 <= length (cK c))%nat -> (Z.of_nat (length (cK c)) < 2^26)%Z -> In a (cKn c) -> In a Kn' ->
  pdist order npexp X (scaling var X (cK c) nc) (cKn c) (length (pairs_all (cK c))) (a, b) =
  pdist order npexp X (scaling var X (cK c) nc) Kn' (length (pairs_all (cK c))) (a, b).
Proof.
  intros X nc c Kn' a b ND N1 N2 I1 I2 H4 Big Ha Ha'. assert (PL := pairs_all_length _ ND).
  assert (L1 := NoDup_incl_length N1 I1). assert (L2 := NoDup_incl_length N2 I2).
  unfold pdist. cbn [fst snd]. destruct (cKn c) as [|k kn] eqn:E1; [contradiction|]. destruct Kn' as [|k' kn'] eqn:E2; [contradiction|].
  rewrite <- E1, <- E2 in *. apply mem_spec in Ha, Ha'. rewrite Ha, Ha', !penalty_arg; auto; nia.
Qed.
(** the same with a random sample of at least as many pairs as there are rows *)
Theorem C105_penalty_constant_sampled : forall X S Kn Kn' Np a b, (length Kn < Np)%nat -> (length Kn' < Np)%nat -> (Z.of_nat Np < 2^53)%Z ->
  In a Kn -> In a Kn' -> pdist order npexp X S Kn Np (a, b) = pdist order npexp X S Kn' Np (a, b).
Proof.
  intros X S Kn Kn' Np a b L1 L2 Big Ha Ha'.
  unfold pdist. cbn [fst snd]. destruct Kn as [|k kn] eqn:E1; [contradiction|]. destruct Kn' as [|k' kn'] eqn:E2; [contradiction|].
  rewrite <- E1, <- E2 in *. apply mem_spec in Ha, Ha'. now rewrite Ha, Ha', !penalty_arg.
Qed.
Lemma div_num : forall x y m, nn x -> nn y -> key x <= key y -> isfin m = true -> 0 < B2R m -> fleb (fdiv x m) (fdiv y m) = true.
Proof.
  intros x y m Hx Hy Le F P. assert (Nx := nn_div x m Hx F P). assert (Ny := nn_div y m Hy F P).
  apply fleb_spec. split; [apply Nx|]. split; [apply Ny|].
  destruct (nn_cases y Hy) as [[Fy Py]| ->].
  - destruct (nn_cases x Hx) as [[Fx Px]| ->]; [|exfalso; rewrite (key_fin y Fy) in Le; simpl in Le; assert (B := fin_bound y); lra].
    destruct (fdiv_key x m Fx F ltac:(lra)) as [_ ->]. destruct (fdiv_key y m Fy F ltac:(lra)) as [_ ->].
    rewrite !key_fin in Le by auto. apply crnd_mono. apply Rmult_le_compat_r; auto. left. now apply Rinv_0_lt_compat.
  - assert (W : fdiv finf m = finf).
    { destruct m as [b|b| |[|] mm e E]; try discriminate; try reflexivity.
      - simpl in P. lra.
      - exfalso. assert (Q := F2R_lt_0 radix2 (Float radix2 (Z.neg mm) e) eq_refl). simpl in P. simpl in Q. lra. }
    rewrite W. apply (key_bound (fdiv x m)).
Qed.
Lemma div_den : forall x m m', nn x -> isfin m = true -> isfin m' = true -> 0 < B2R m <= B2R m' -> fleb (fdiv x m') (fdiv x m) = true.
Proof.
  intros x m m' Hx F F' [P Le]. assert (N1 := nn_div x m Hx F P). assert (N2 := nn_div x m' Hx F' ltac:(lra)).
  apply fleb_spec. split; [apply N2|]. split; [apply N1|].
  destruct (nn_cases x Hx) as [[Fx Px]| ->].
  - destruct (fdiv_key x m Fx F ltac:(lra)) as [_ ->]. destruct (fdiv_key x m' Fx F' ltac:(lra)) as [_ ->].
    apply crnd_mono. apply Rmult_le_compat_l; auto. now apply Rinv_le.
  - assert (W : fdiv finf m = finf).
    { destruct m as [b|b| |[|] mm e E]; try discriminate; try reflexivity.
      - simpl in P. lra.
      - exfalso. assert (Q := F2R_lt_0 radix2 (Float radix2 (Z.neg mm) e) eq_refl). simpl in P. simpl in Q. lra. }
    rewrite W. apply (key_bound (fdiv finf m')).
Qed.
(** it is never more than a sixteenth: np.exp(-4.8) = 0.0082 *)
Theorem C105_penalty_small : forall X nc c len a b, var_ok X (cK c) nc -> row_ok nc (X a) -> row_ok nc (X b) ->
  (length (cKn c) < len)%nat -> (Z.of_nat len < 2^53)%Z ->
  isfin (npexp (fmul (fofZ 12) (fopp f0_4))) = true -> 0 <= B2R (npexp (fmul (fofZ 12) (fopp f0_4))) <= 1 / 100 ->
  let none := pdist order npexp X (scaling var X (cK c) nc) [] len (a, b) in
  fleb (fdiv none (flit 17 (-4))) (pdist order npexp X (scaling var X (cK c) nc) (cKn c) len (a, b)) = true.
Proof.
  intros X nc c len a b V Ra Rb Hn Big Fe [E0 E1] none. assert (S := scaled_nn X (cK c) nc a b V Ra Rb).
  destruct (flit_val 17 (-4)) as [F17 V17]; [reflexivity|lia|]. change (bpow radix2 (-4)) with (/ IZR 16) in V17.
  destruct (fofZ_val 1) as [Fo Vo]; [reflexivity|]. change (fofZ 1) with fone in *.
  assert (One : fleb (fdiv none (flit 17 (-4))) (fdiv none fone) = true) by (apply div_den; auto; rewrite Vo, V17; lra).
  assert (Self : forall x, nn x -> key (fdiv x fone) <= key x).
  { intros x Hx. destruct (nn_cases x Hx) as [[Fx Px]| ->].
    - destruct (fdiv_key x fone Fx Fo ltac:(rewrite Vo; lra)) as [_ K]. rewrite K, Vo, key_fin by auto.
      unfold Rdiv. rewrite Rinv_1, Rmult_1_r, crnd_B2R. lra.
    - apply key_bound. }
  unfold pdist. cbn [fst snd]. destruct (cKn c) as [|k kn] eqn:E.
  - unfold none, pdist in *. cbn [fst snd] in *. apply fleb_spec in One. apply fleb_spec.
    split; [apply One|]. split; [apply S|]. assert (Q := Self _ S). destruct One as (_ & _ & One). lra.
  - rewrite <- E in *. destruct (mem a (cKn c)); [|exact One].
    rewrite penalty_arg by auto. set (x := npexp _) in *.
    destruct (fadd_key fone x Fo Fe) as [Np Kp]. rewrite Vo in Kp.
    assert (L1 : 1 <= key (fadd fone x)) by (rewrite Kp; rewrite <- crnd_1 at 1; apply crnd_mono; lra).
    assert (L2 : key (fadd fone x) <= 17 / 16).
    { replace (17 / 16) with (crnd (B2R (flit 17 (-4)))) by (rewrite crnd_B2R, V17; reflexivity). rewrite Kp. apply crnd_mono. rewrite V17. lra. }
    assert (B := big_gt 1 ltac:(lia)). change (bpow radix2 1) with 2 in B.
    assert (Fp : isfin (fadd fone x) = true) by (apply fin_lt_big; auto; lra). rewrite key_fin in L1, L2 by auto.
    unfold none, pdist. cbn [fst snd]. apply div_den; auto. rewrite V17. lra.
Qed.
(** ** of two pairs with the same squared differences the one with the bigger SSEs is the closer one *)
Theorem C105_favours_low_SSE : forall X nc c len a b a' b', var_ok X (cK c) nc -> exp_ok -> (0 < len)%nat ->
  (length (cKn c) <= 2 * len)%nat -> (Z.of_nat len < 2^50)%Z ->
  row_ok nc (X a) -> row_ok nc (X b) -> row_ok nc (X a') -> row_ok nc (X b') ->
  sumsq order X (scaling var X (cK c) nc) a b = sumsq order X (scaling var X (cK c) nc) a' b' ->
  (In a (cKn c) <-> In a' (cKn c)) -> fleb (sse_of X a) (sse_of X a') = true -> fleb (sse_of X b) (sse_of X b') = true ->
  fleb (pdist order npexp X (scaling var X (cK c) nc) (cKn c) len (a', b'))
       (pdist order npexp X (scaling var X (cK c) nc) (cKn c) len (a, b)) = true.
Proof.
  intros X nc c len a b a' b' V Ex L0 L2 Lm Ra Rb Ra' Rb' Es In1 Ha Hb.
  assert (S1 := scaled_nn X (cK c) nc a b V Ra Rb). assert (S2 := scaled_nn X (cK c) nc a' b' V Ra' Rb').
  assert (Q : fleb (scaled order X (scaling var X (cK c) nc) a' b') (scaled order X (scaling var X (cK c) nc) a b) = true).
  { unfold scaled. rewrite Es. unfold sse_of in *.
    destruct (mean_pos (nth 0 (X a) fzero) (nth 0 (X b) fzero)) as [F P];
      try (now eapply row_fin; eauto); try apply Ra; try apply Rb.
    destruct (mean_pos (nth 0 (X a') fzero) (nth 0 (X b') fzero)) as [F' P'];
      try (now eapply row_fin; eauto); try apply Ra'; try apply Rb'.
    apply div_den; auto. { now apply sumsq_nn. } split; auto.
    apply fleb_spec in Ha, Hb. destruct Ha as (_ & _ & Ha), Hb as (_ & _ & Hb).
    assert (G : forall x y, row_ok nc (X x) -> row_ok nc (X y) -> let w := fadd (nth 0 (X x) fzero) (nth 0 (X y) fzero) in
      isfin w = true /\ B2R w = crnd (B2R (nth 0 (X x) fzero) + B2R (nth 0 (X y) fzero)) /\ nn w).
    { intros x y Rx Ry w. assert (Fx := row_fin nc _ 0 Rx). assert (Fy := row_fin nc _ 0 Ry).
      destruct (fadd_key _ _ Fx Fy) as [N K]. fold w in N, K.
      destruct Rx as (_ & _ & _ & X0 & X1), Ry as (_ & _ & _ & Y0 & Y1).
      assert (K0 : 0 <= key w) by (rewrite K; apply crnd_ge0; lra).
      assert (K1 : key w <= bpow radix2 1001).
      { rewrite K, <- (crnd_bpow 1001) by lia. apply crnd_mono.
        replace (bpow radix2 1001) with (2 * bpow radix2 1000) by (change 1001%Z with (1 + 1000)%Z; rewrite bpow_plus; simpl; lra). lra. }
      assert (B := big_gt 1001 ltac:(lia)). assert (Fw : isfin w = true) by (apply fin_lt_big; auto; lra).
      split; auto. split; [now rewrite <- K, key_fin|]. now split. }
    destruct (G a b Ra Rb) as (W1 & W2 & W3). destruct (G a' b' Ra' Rb') as (W1' & W2' & W3').
    destruct (fofZ_val 2) as [F2 V2]; [reflexivity|].
    assert (Z := div_num _ _ (fofZ 2) W3 W3'). rewrite !key_fin in Ha, Hb by (eapply row_fin; eauto).
    rewrite !key_fin, W2, W2' in Z by auto. specialize (Z ltac:(apply crnd_mono; lra) F2 ltac:(rewrite V2; lra)).
    apply fleb_spec in Z. destruct Z as (_ & _ & Z). now rewrite !key_fin in Z by auto. }
  apply fleb_spec in Q. destruct Q as (_ & _ & Q). unfold pdist. cbn [fst snd].
  assert (Em : mem a (cKn c) = mem a' (cKn c)).
  { destruct (mem a (cKn c)) eqn:E, (mem a' (cKn c)) eqn:E'; auto; exfalso.
    - apply mem_spec in E. apply In1, mem_spec in E. congruence.
    - apply mem_spec in E'. apply In1, mem_spec in E'. congruence. }
  destruct (cKn c) as [|k kn] eqn:E.
  - apply fleb_spec. split; [apply S2|]. split; [apply S1|exact Q].
  - rewrite <- E in *. rewrite Em. destruct (mem a' (cKn c)).
    + destruct (penalty_pos (length (cKn c)) len Ex L0 L2 Lm). now apply div_num.
    + destruct (fofZ_val 1) as [Fo Vo]; [reflexivity|]. change (fofZ 1) with fone in *. apply div_num; auto. rewrite Vo. lra.
Qed.
End Q.

(** ** the whole history *)
Local Open Scope nat_scope.
Lemma single_bound : forall x, single x -> (B2R x <= bpow radix2 1000)%R.
Proof.
  intros x [F E]. assert (Q := rnd32_key x F). rewrite E, key_fin in Q by auto. rewrite Q.
  unfold clamp32 in *. assert (B := fin_bound x). case Rlt_bool_spec; intros H.
  - apply Rabs_lt_inv in H. assert (W : (big32 <= bpow radix2 1000)%R) by (apply bpow_le; lia). lra.
  - rewrite Rlt_bool_false in Q by auto. exfalso. destruct (Rlt_bool _ 0); lra.
Qed.
(** the pair finder's set of rows never in the population holds each row once *)
Lemma ckn_set_row : forall c k z b c', NoDup (cKn c) -> set_row c k z b = Ok c' -> NoDup (cKn c').
Proof. intros c k z b c' H E. unfold set_row in E. destruct (forallb isfin z); [|discriminate]. injection E as <-. destruct b; simpl; auto. now apply nodup_sadd. Qed.
Lemma ckn_clear_row : forall c k, NoDup (cKn c) -> NoDup (cKn (clear_row c k)).
Proof. intros c k H. unfold clear_row. destruct (mem k (cK c)); auto. simpl. now apply nodup_sdel. Qed.
Section CKn.
Variable hash : ind -> Z.
Lemma ckn_write : forall h i never k r, NoDup (cKn (cp h)) -> NoDup (cKn (cp (fst (write_record hash h i never k r)))).
Proof.
  intros h i never k r H. unfold write_record. destruct (r <? nmax h); [|exact H]. cbn [negb]. destruct (row_of (Nd h) i) as [row|e]; [|exact H].
  destruct never.
  - destruct (set_row (cp h) r row true) as [c|e] eqn:E; [|exact H]. exact (ckn_set_row _ _ _ _ _ H E).
  - destruct (pack_overflow i); exact (ckn_clear_row _ r H).
Qed.
Lemma ckn_add_at : forall h sse N i never, NoDup (cKn (cp h)) -> NoDup (cKn (cp (fst (add_at hash h sse N i never)))).
Proof.
  intros h sse N i never H. unfold add_at. destruct (if N =? 0 then Ok (0, 0) else kkr h sse N) as [[k r]|e]; [|exact H].
  assert (W := ckn_write h i never k r H). destruct (write_record hash h i never k r) as [h' [e|]]; exact W.
Qed.
Lemma ckn_purge : forall h kr h', NoDup (cKn (cp h)) -> purge h kr = Ok h' -> NoDup (cKn (cp h')).
Proof. intros h kr h' H E. unfold purge in E. destruct (mem kr (K h)); [|discriminate]. injection E as <-. now apply ckn_clear_row. Qed.
Lemma ckn_purge_all : forall ks h h', NoDup (cKn (cp h)) -> purge_all h ks = Ok h' -> NoDup (cKn (cp h')).
Proof.
  induction ks as [|k ks IH]; simpl; intros h h' H E; [now injection E as <-|].
  destruct (purge h k) as [h1|e] eqn:P; [|discriminate]. simpl in E. apply (IH h1); auto. now apply (ckn_purge h k).
Qed.
Lemma ckn_step : forall h op, NoDup (cKn (cp h)) -> NoDup (cKn (cp (fst (hstep hash h op)))).
Proof.
  intros h op H. destruct op as [sse i never o|i|kr| |]; cbn [hstep].
  - unfold h_add. destruct (negb (isfin sse)); auto. destruct (locked h); auto.
    destruct (length (K h) <? nmax h); [now apply ckn_add_at|]. destruct (cpf_call Np_max (cp h) o) as [[kr|e]|]; auto.
    destruct (purge h kr) as [h1|e] eqn:P; auto. apply ckn_add_at. now apply (ckn_purge h kr).
  - unfold not_in_pop. destruct (locked h); auto. destruct (pack_overflow i); auto. destruct (zget (krd h) (hash i)) as [kr|]; auto.
    unfold not_in_row. destruct (kr <? nmax h); auto. destruct (set_row (cp h) kr (X h kr) false) as [c|e] eqn:E; auto. exact (ckn_set_row _ _ _ _ _ H E).
  - destruct (locked h); auto. unfold not_in_row. destruct (kr <? nmax h); auto.
    destruct (set_row (cp h) kr (X h kr) false) as [c|e] eqn:E; auto. exact (ckn_set_row _ _ _ _ _ H E).
  - unfold purge_pop. destruct (locked h); auto. destruct (purge_all h (Kp h)) as [h1|e] eqn:P; auto. exact (ckn_purge_all _ _ _ H P).
  - unfold h_clear. destruct (locked h); auto. constructor.
Qed.
Lemma ckn_exec : forall ops h, NoDup (cKn (cp h)) -> NoDup (cKn (cp (hexec hash h ops))).
Proof. induction ops as [|op ops IH]; intros h H; simpl; auto. apply IH. now apply ckn_step. Qed.
End CKn.

(** adding to a full history with up to 141 records outside the population drops one
    of the closest pair of these, the one in the lower row.  [D]: the squared
    differences of the stored numbers divided by the variances, summed, divided by the mean SSE, and so on *)
Theorem C105_dropped : forall var order npexp hash nd nm ops h i never dr ca r h', reach hash nd nm ops h -> fit_ind nd i ->
  length (K h) = nmax h ->
  h_add hash h (iSSE i) i never (pair_orc var order npexp (X h) (S nd) (cp h) dr ca) = (h', Ret (Some r)) ->
  let out := cK (cp h) in
  2 <= length out -> length out <= 141 ->
  (forall x, In x out -> (0 < B2R (h_sse h x))%R) -> var_ok var (X h) out (S nd) -> exp_ok npexp ->
  let D := fun a b => pdist order npexp (X h) (scaling var (X h) out (S nd)) (cKn (cp h)) (length (pairs_all out)) (a, b) in
  (forall x, In x out <-> In x (K h) /\ ~ In x (Kp h)) /\
  exists r', r < r' /\ In r out /\ In r' out /\
    forall a b, In a out -> In b out -> a < b -> fleb (D r r') (D a b) = true.
Proof.
  intros var order npexp hash nd nm ops h i never dr ca r h' R G Fu E out H2 H141 Pos V Ex D.
  split. { intros x. apply (C33_classes _ _ _ _ _ R). }
  destruct (reach_inv _ _ _ _ _ R) as [I End].
  assert (NDn : NoDup (cKn (cp h))) by (destruct R as (_ & _ & ->); apply ckn_exec; constructor).
  subst nd. assert (G' : good h i) by exact G. destruct (locked h) eqn:U.
  { unfold h_add in E. destruct G as (_ & Gf & _). rewrite Gf, U in E. discriminate. }
  destruct (add_spec hash h i never (pair_orc var order npexp (X h) (S (Nd h)) (cp h) dr ca) I G' U) as [_ B]. specialize (B Fu).
  set (o := pair_orc var order npexp (X h) (S (Nd h)) (cp h) dr ca) in *.
  assert (ND := i_cnd h I). fold out in ND.
  assert (Np141 : length out * (length out - 1) < 2 * Np_max).
  { assert (Q : 141 * 140 < 2 * Np_max) by (apply Nat.ltb_lt; vm_compute; reflexivity). nia. }
  assert (Rows : forall k, In k out -> row_ok (S (Nd h)) (X h k)).
  { intros k Hk. assert (Kk : In k (K h)) by (apply (i_cover h I); auto). destruct (i_data h I k Kk) as (L & F & Sg).
    assert (Hs : h_sse h k = nth 0 (X h k) fzero) by (unfold h_sse; destruct (X h k); [discriminate|reflexivity]).
    split; auto. split; [lia|]. split; [apply Forall_forall; now apply forallb_forall|].
    rewrite <- Hs. split; [now apply Pos|now apply single_bound]. }
  destruct (cpf_call Np_max (cp h) o) as [[g|e]|] eqn:C.
  - destruct B as (Hg & h2 & E2 & _). rewrite E2 in E. injection E as <- <-.
    destruct (C105_closest var order npexp (X h) (S (Nd h)) Np_max (cp h) dr ca g ND H2 Np141) as (r' & A1 & A2 & A3 & A4); auto.
    + intros a b Ha Hb Hab. assert (PL := pairs_all_length _ ND). fold out in PL.
      assert (Ln : length (cKn (cp h)) <= length out).
      { apply NoDup_incl_length; auto. intros x Hx. apply (i_kn h I). now apply (i_never h I). }
      apply C105_comparable; auto; fold out; nia.
    + exists r'. auto.
  - destruct B as (_ & _ & E2). rewrite E2 in E. discriminate.
  - destruct B as (_ & E2). rewrite E2 in E. discriminate.
Qed.

(** ** examples *)
(** left to right *)
Fixpoint in_turn (n : nat) : tree := match n with O | 1 => Leaf 0 | S m => Node (in_turn m) (Leaf m) end.
Definition var1 : list f64 -> f64 := fun _ => fone.
Definition exp1 : f64 -> f64 := fun _ => flit 1 (-7).
Definition X5 : nat -> list f64 := fun k => map fofZ (nth k [[1; 0]; [2; 6]; [8; 9]; [8; 9]; [7; 1]]%Z []).
Definition c5 : cpf := mkCpf [0; 1; 2; 3; 4] [1; 2].
Example C105_case : NoDup (cK c5) /\ (length (cK c5) * (length (cK c5) - 1) < 2 * Np_max) /\ var_ok var1 X5 (cK c5) 2 /\ exp_ok exp1 /\
  (forall k, In k (cK c5) -> row_ok 2 (X5 k)) /\
  cpf_call Np_max c5 (pair_orc var1 in_turn exp1 X5 2 c5 (fun _ _ => 0) 0) = Some (Ok 2) /\
  cpf_call Np_max (mkCpf [0; 1; 2; 4] [1]) (pair_orc var1 in_turn exp1 X5 2 (mkCpf [0; 1; 2; 4] [1]) (fun _ _ => 0) 0) = Some (Ok 2).
Proof.
  split; [repeat constructor; simpl; intuition lia|]. split; [apply Nat.ltb_lt; vm_compute; reflexivity|]. split.
  { intros j _. unfold var1. destruct (fofZ_val 1) as [F V]; [reflexivity|]. change (fofZ 1) with fone in *. split; auto. rewrite V.
    assert (Q := bpow_le radix2 0 1000 ltac:(lia)). simpl (bpow radix2 0) in Q. lra. }
  split.
  { intros x _ _. unfold exp1. destruct (flit_val 1 (-7)) as [F V]; [reflexivity|lia|]. split; auto. rewrite V, Rmult_1_l.
    split; [apply bpow_ge_0|]. apply bpow_le. lia. }
  split; [|split; vm_compute; reflexivity].
  assert (One : forall a b : Z, (0 < a < 10)%Z -> (0 <= b < 10)%Z -> row_ok 2 [fofZ a; fofZ b]).
  { intros a b Ha Hb. destruct (fofZ_val a) as [Fa Va]; [lia|]. destruct (fofZ_val b) as [Fb Vb]; [lia|].
    split; [reflexivity|]. split; [lia|]. split; [repeat constructor; auto|]. cbn [nth]. rewrite Va.
    assert (Q := bpow_le radix2 4 1000 ltac:(lia)). change (bpow radix2 4) with 16%R in Q.
    split; [apply (IZR_lt 0); lia|]. apply Rle_trans with 16%R; auto. apply IZR_le. lia. }
  intros k Hk. cbn [cK c5 In] in Hk. destruct Hk as [<-|[<-|[<-|[<-|[<-|[]]]]]]; unfold X5; cbn [nth map]; apply One; lia.
Qed.
(** the better one of a pair may be dropped: of two records outside the population
    that in the lower row, here with SSE 1 and not with SSE 8 *)
Theorem C105_worse_dropped_refuted : exists X c, cK c = [0; 2] /\ fltb (sse_of X 0) (sse_of X 2) = true /\
  forall var order npexp dr ca, cpf_call Np_max c (pair_orc var order npexp X 2 c dr ca) = Some (Ok 0).
Proof.
  exists X5, (mkCpf [0; 2] []). split; [reflexivity|]. split; [vm_compute; reflexivity|].
  intros var order npexp dr ca. apply (C105_two_rows var order npexp X5 2 Np_max (mkCpf [0; 2] []) dr ca 0 2); auto.
  apply Nat.ltb_lt. vm_compute. reflexivity.
Qed.
(** a full history of capacity four, two records outside the population *)
Example C105_dropped_case : let h := run 4 opsx in length (K h) = nmax h /\ cK (cp h) = [3; 0] /\
  (forall x, In x (cK (cp h)) <-> In x (K h) /\ ~ In x (Kp h)) /\
  snd (h_add hash0 h (fz 6) (an 6) true (pair_orc var1 in_turn exp1 (X h) 2 (cp h) (fun _ _ => 0) 0)) = Ret (Some 0).
Proof.
  cbv zeta. split; [vm_compute; reflexivity|]. split; [vm_compute; reflexivity|]. split; [|vm_compute; reflexivity].
  replace (cK (cp (run 4 opsx))) with [3; 0] by (vm_compute; reflexivity).
  replace (K (run 4 opsx)) with [1; 3; 0; 2] by (vm_compute; reflexivity).
  replace (Kp (run 4 opsx)) with [2; 1] by (vm_compute; reflexivity). intros x. simpl. lia.
Qed.
(** a random sample: three of six pairs *)
Example C105_sampled_case : let c := mkCpf [0; 1; 2; 4] [1; 2] in 2 * 3 <= length (cK c) * (length (cK c) - 1) /\ length (cKn c) < 3 /\
  cpf_call 3 c (pair_orc var1 in_turn exp1 X5 2 c (fun _ j => nth j [0; 1; 0; 1; 3; 1; 1; 2; 0; 3] 0) 4) = Some (Ok 1).
Proof. cbv zeta. split; [simpl; lia|]. split; [simpl; lia|vm_compute; reflexivity]. Qed.
(** no comparable distance: two rows with SSE 0 and equal values give 0/0 *)
Example C105_columns_case : let X := fun k => map fofZ (nth k [[1; 5]; [2; 9]; [4; 6]]%Z []) in let c := mkCpf [0; 1; 2] [] in
  cKn c = [] /\ nth 1 [(0, 1); (0, 2)] (0, 0) = (0, 2) /\ column X (cK c) 1 = map fofZ [5; 9; 6]%Z.
Proof. split; [reflexivity|]. split; reflexivity. Qed.
Example C105_nan_case : let X := fun k => map fofZ (nth k [[1; 5]; [0; 6]; [0; 6]]%Z []) in let c := mkCpf [0; 1; 2] [] in
  isnan (pdist in_turn exp1 X (scaling var1 X (cK c) 2) (cKn c) 3 (1, 2)) = true /\
  cpf_call Np_max c (pair_orc var1 in_turn exp1 X 2 c (fun _ _ => 0) 0) = Some (Ok 1).
Proof. vm_compute. auto. Qed.

Print Assumptions C105_closest.
Print Assumptions C105_answer.
Print Assumptions C105_closest_sampled.
Print Assumptions C105_columns.
Print Assumptions C105_nan_first.
Print Assumptions C105_two_rows.
Print Assumptions C105_comparable.
Print Assumptions C105_coincident.
Print Assumptions C105_penalty_constant.
Print Assumptions C105_penalty_constant_sampled.
Print Assumptions C105_penalty_small.
Print Assumptions C105_favours_low_SSE.
Print Assumptions C105_dropped.
Print Assumptions C105_worse_dropped_refuted.
