(** * Properties of the data of the examples (C98, C99). *)
From Coq Require Import Reals String Ascii List Bool Arith ZArith Lia Lra Sorted Permutation.
From Flocq Require Import Core BinarySingleNaN.
From Verif Require Import Flt FltMore Py VsModel DataModel.
Import ListNotations.
Local Open Scope nat_scope.
#[local] Arguments fltb : simpl never.
#[local] Arguments fleb : simpl never.
#[local] Arguments feqb : simpl never.
#[local] Arguments fadd : simpl never.
#[local] Arguments fsub : simpl never.
#[local] Arguments fmul : simpl never.
#[local] Arguments fdiv : simpl never.
#[local] Arguments fofZ : simpl never.
#[local] Arguments flit : simpl never.

(** ** C98: reading time series *)
(** Comments and excluded rows are left out, everything else kept in order; an empty row is
    an IndexError *)
Definition is_comment (row : list string) : bool := match row with String c _ :: _ => Ascii.eqb c "#"%char | _ => false end.
Theorem C98_load include rows : (Forall (fun r => r <> []) rows -> load false include rows = Ok (filter (fun r => negb (is_comment r) && include r) rows)) /\
  (In [] rows -> load false include rows = Raise IndexError).
Proof.
  assert (G : (Forall (fun r => r <> []) rows -> load_rows include rows = Ok (filter (fun r => negb (is_comment r) && include r) rows)) /\ (In [] rows -> load_rows include rows = Raise IndexError)).
  { split.
    - induction rows as [|r rows IH]; intros F; [reflexivity|]. inversion F as [|? ? N F2]; subst. cbn [load_rows filter]. rewrite (IH F2). destruct r as [|s r]; [congruence|].
      cbn [comment bind is_comment]. destruct s as [|c s]; [reflexivity|]. destruct (Ascii.eqb c "#"); reflexivity.
    - induction rows as [|r rows IH]; intros I; [destruct I|]. cbn [load_rows]. destruct I as [->|I]; [reflexivity|]. destruct r as [|s r]; [reflexivity|]. cbn [comment bind]. now rewrite (IH I). }
  destruct rows as [|r rows]; [split; [reflexivity|intros []]|]. exact G.
Qed.

Definition before (a b : list f64) : Prop := fleb (time a) (time b) = true.
Lemma tins_perm x l : Permutation (tins x l) (x :: l).
Proof. induction l as [|h t IH]; cbn [tins]; [constructor; constructor|]. destruct (fltb (time h) (time x)); [|reflexivity]. rewrite IH. constructor. Qed.
Lemma tsort_perm l : Permutation (tsort l) l.
Proof. induction l as [|x l IH]; cbn; [constructor|]. rewrite tins_perm. now constructor. Qed.
Lemma tins_sorted x l : isnan (time x) = false -> Forall (fun v => isnan (time v) = false) l -> StronglySorted before l -> StronglySorted before (tins x l).
Proof.
  intros N F S. induction S as [|h t S IH H]; cbn [tins]; [repeat constructor|]. inversion F as [|? ? Nh Ft]; subst. destruct (fltb (time h) (time x)) eqn:E.
  - constructor; [auto|]. apply (Permutation_Forall (Permutation_sym (tins_perm x t))). constructor; [now apply fltb_fleb|exact H].
  - assert (L : before x h) by (apply fleb_spec; split; [exact N|split; [exact Nh|now apply fltb_false]]).
    constructor; [now constructor|]. constructor; [exact L|]. eapply Forall_impl; [|exact H]. intros v V. unfold before in *. eapply fleb_trans; eauto.
Qed.
Lemma tsort_sorted l : Forall (fun v => isnan (time v) = false) l -> StronglySorted before (tsort l).
Proof.
  induction l as [|x l IH]; intros F; cbn; [constructor|]. inversion F as [|? ? Nx Fl]; subst. apply tins_sorted; auto. apply (Permutation_Forall (Permutation_sym (tsort_perm l))). exact Fl.
Qed.
Lemma tins_stable x l p : (forall v, In v l -> p v = true -> p x = true -> fltb (time v) (time x) = false) ->
  filter p (tins x l) = filter p (x :: l).
Proof.
  induction l as [|h t IH]; intros H; [reflexivity|]. cbn [tins]. destruct (fltb (time h) (time x)) eqn:E; [|reflexivity].
  cbn [filter]. rewrite IH by (intros v I; apply H; now right). cbn [filter]. destruct (p h) eqn:Ph, (p x) eqn:Px; try reflexivity. rewrite (H h) in E by (auto; now left). discriminate.
Qed.
Lemma tsort_stable l t : filter (fun v => feqb (time v) t) (tsort l) = filter (fun v => feqb (time v) t) l.
Proof.
  induction l as [|x l IH]; [reflexivity|]. cbn [tsort fold_right]. fold (tsort l). rewrite tins_stable.
  - cbn [filter]. now rewrite IH.
  - intros v _ Pv Px. apply feqb_spec in Pv as (N1 & _ & E1). apply feqb_spec in Px as (N2 & _ & E2). destruct (fltb (time v) (time x)) eqn:E; [|reflexivity]. apply fltb_spec in E. lra.
Qed.
Lemma pick_spec ranges t0 l : forall k, pick ranges t0 k l =
  map (fun i => (fsub (time (nth i l [])) t0, tl (nth i l []))) (filter (fun i => picked ranges (k + Z.of_nat i)) (seq 0 (length l))).
Proof.
  induction l as [|v l IH]; intros k; [reflexivity|]. cbn [pick length seq filter]. rewrite Z.add_0_r, IH. rewrite <- seq_shift.
  assert (E : filter (fun i => picked ranges (k + Z.of_nat i)) (map S (seq 0 (length l))) = map S (filter (fun i => picked ranges (k + 1 + Z.of_nat i)) (seq 0 (length l)))).
  { generalize (seq 0 (length l)). induction l0 as [|i l0 IH0]; [reflexivity|]. cbn [map filter]. replace (k + Z.of_nat (S i))%Z with (k + 1 + Z.of_nat i)%Z by lia. destruct (picked _ _); cbn [map]; now rewrite IH0. }
  rewrite E. destruct (picked ranges k); cbn [map app]; now rewrite map_map.
Qed.
Lemma filter_seq_sorted p n : forall k, StronglySorted lt (filter p (seq k n)).
Proof.
  induction n as [|n IH]; intros k; [constructor|]. cbn [seq filter]. destruct (p k); [|apply IH]. constructor; [apply IH|]. apply Forall_forall. intros i I. apply filter_In in I as [I _]. apply in_seq in I. lia.
Qed.
(** The readings are put in order of time, those of equal time as they were; the ones whose
    place in that order is in a range are taken, once each and in order, all if there are
    no ranges.  t counts from the earliest reading, also if that one is not taken *)
Theorem C98_parse tofloat ranges rows vs : mapM (mapM tofloat) rows = Ok vs -> vs <> [] -> Forall (fun v => v <> []) vs -> Forall (fun v => isnan (time v) = false) vs ->
  exists sorted ks t X, parseValues false tofloat ranges rows = Ok (t, X) /\
    Permutation sorted vs /\ StronglySorted (fun a b => fleb (time a) (time b) = true) sorted /\
    (forall x, filter (fun v => feqb (time v) x) sorted = filter (fun v => feqb (time v) x) vs) /\
    StronglySorted lt ks /\
    (forall i, In i ks <-> i < length vs /\ (ranges = [] \/ exists k0 k1, In (k0, k1) ranges /\ (k0 <= Z.of_nat i)%Z /\ (forall e, k1 = Some e -> (Z.of_nat i < e)%Z))) /\
    t = map (fun i => fsub (time (nth i sorted [])) (time (nth 0 sorted []))) ks /\ X = map (fun i => tl (nth i sorted [])) ks.
Proof.
  intros E NE F N. exists (tsort vs), (filter (fun i => picked ranges (0 + Z.of_nat i)) (seq 0 (length (tsort vs)))). unfold parseValues. rewrite E. cbn [bind].
  replace (existsb _ vs) with false by (symmetry; clear - F; induction F as [|v vs H F IH]; [reflexivity|]; destruct v; [congruence|exact IH]).
  assert (L := Permutation_length (tsort_perm vs)). destruct (tsort vs) as [|v l] eqn:T.
  { destruct vs; [congruence|]. cbn in L. discriminate. }
  rewrite <- T in *. assert (T0 : time v = time (nth 0 (tsort vs) [])) by (now rewrite T). rewrite T0. rewrite pick_spec. rewrite !map_map. cbn [fst snd].
  eexists. eexists. split; [reflexivity|]. split; [apply tsort_perm|]. split; [now apply tsort_sorted|]. split; [intros x; apply tsort_stable|]. split; [apply filter_seq_sorted|].
  split; [|split; reflexivity]. intros i. rewrite filter_In, in_seq, L, Z.add_0_l. unfold picked. destruct ranges as [|r rs] eqn:R; [intuition lia|]. rewrite <- R in *. rewrite existsb_exists. split.
  - intros ([_ I] & (k0, k1) & J & Q). split; [lia|]. right. exists k0, k1. split; [exact J|]. unfold in_range in Q. cbn [fst snd] in Q. apply andb_true_iff in Q as [Q1 Q2]. split; [now apply Z.leb_le|].
    intros e ->. now apply Z.ltb_lt.
  - intros (I & [Z|(k0 & k1 & J & Q1 & Q2)]); [congruence|]. split; [lia|]. exists (k0, k1). split; [exact J|]. unfold in_range. cbn [fst snd]. apply andb_true_iff. split; [now apply Z.leb_le|].
    destruct k1 as [e|]; [|reflexivity]. apply Z.ltb_lt. now apply Q2.
Qed.
(** For finite times t is not negative and never decreases *)
Lemma ss_nth {A} (R : A -> A -> Prop) d l : StronglySorted R l -> forall i j, i < j < length l -> R (nth i l d) (nth j l d).
Proof.
  induction 1 as [|x l S IH F]; intros i j [L1 L2]; [cbn in L2; lia|]. cbn in L2. destruct j as [|j]; [lia|]. destruct i as [|i]; cbn [nth].
  - rewrite Forall_forall in F. apply F. apply nth_In. lia.
  - apply IH. lia.
Qed.
Lemma ss_map {A B} (R : A -> A -> Prop) (Q : B -> B -> Prop) (f : A -> B) l : StronglySorted R l -> (forall a b, In a l -> In b l -> R a b -> Q (f a) (f b)) -> StronglySorted Q (map f l).
Proof.
  induction 1 as [|x l S IH F]; intros H; cbn; constructor.
  - apply IH. intros a b Ia Ib. apply H; now right.
  - apply Forall_forall. intros y I. apply in_map_iff in I as (a & <- & I). rewrite Forall_forall in F. apply H; [now left|now right|auto].
Qed.
Theorem C98_times tofloat ranges rows vs t X : mapM (mapM tofloat) rows = Ok vs -> vs <> [] -> Forall (fun v => v <> []) vs -> Forall (fun v => isfin (time v) = true) vs ->
  parseValues false tofloat ranges rows = Ok (t, X) ->
  length t = length X /\ Forall (fun x => fleb fzero x = true) t /\ StronglySorted (fun x y => fleb x y = true) t /\
  (ranges = [] -> length t = length rows /\ exists x r, t = x :: r /\ feqb x fzero = true).
Proof.
  intros E NE F FN P. assert (N : Forall (fun v => isnan (time v) = false) vs) by (eapply Forall_impl; [|exact FN]; intros v; apply nan_fin).
  destruct (C98_parse tofloat ranges rows vs E NE F N) as (sorted & ks & t' & X' & P' & PE & SS & _ & SK & IK & Et & EX). rewrite P in P'. injection P' as <- <-.
  assert (L := Permutation_length PE). assert (LR : length rows = length vs).
  { clear - E. revert vs E. induction rows as [|r rows IH]; intros vs E; cbn in E; [injection E as <-; reflexivity|]. destruct (mapM tofloat r); [|discriminate]. cbn in E.
    destruct (mapM (mapM tofloat) rows) as [l|] eqn:M; [|discriminate]. cbn in E. injection E as <-. cbn. now rewrite (IH l eq_refl). }
  assert (FS : forall i, i < length sorted -> isfin (time (nth i sorted [])) = true).
  { intros i I. rewrite Forall_forall in FN. apply FN. apply (Permutation_in _ PE). now apply nth_In. }
  assert (P0 : 0 < length sorted) by (rewrite L; destruct vs; [congruence|cbn; lia]).
  assert (MONO : forall i j, i <= j < length sorted -> fleb (fsub (time (nth i sorted [])) (time (nth 0 sorted []))) (fsub (time (nth j sorted [])) (time (nth 0 sorted []))) = true).
  { intros i j [I J]. destruct (fsub_key _ _ (FS i ltac:(lia)) (FS 0 P0)) as [N1 K1]. destruct (fsub_key _ _ (FS j J) (FS 0 P0)) as [N2 K2]. apply fleb_spec. split; [exact N1|]. split; [exact N2|]. rewrite K1, K2. apply crnd_mono.
    assert (B2R (time (nth i sorted [])) <= B2R (time (nth j sorted [])))%R; [|lra]. destruct (Nat.eq_dec i j) as [->|NEQ]; [lra|].
    assert (Q := ss_nth _ [] sorted SS i j ltac:(lia)). cbn beta in Q. apply fleb_spec in Q as (_ & _ & Q). rewrite !key_fin in Q by (apply FS; lia). exact Q. }
  assert (Z0 : feqb (fsub (time (nth 0 sorted [])) (time (nth 0 sorted []))) fzero = true).
  { destruct (fsub_key _ _ (FS 0 P0) (FS 0 P0)) as [N1 K1]. apply feqb_spec. split; [exact N1|]. split; [reflexivity|]. rewrite K1, key_fzero. replace (_ - _)%R with 0%R by lra. apply crnd_0. }
  assert (KL : forall i, In i ks -> i < length sorted) by (intros i I; rewrite L; now apply IK).
  split; [subst; now rewrite !map_length|]. split; [|split].
  - subst t. apply Forall_forall. intros x I. apply in_map_iff in I as (i & <- & I). apply (fleb_trans _ (fsub (time (nth 0 sorted [])) (time (nth 0 sorted [])))).
    + apply feqb_spec in Z0 as (N1 & N2 & Q). apply fleb_spec. split; [exact N2|]. split; [exact N1|]. lra.
    + apply MONO. split; [lia|auto].
  - subst t. apply (ss_map _ _ _ _ SK). intros a b Ia Ib H. apply MONO. split; [lia|auto].
  - intros ->. assert (KS : ks = seq 0 (length vs)).
    { assert (G : forall n ks k, StronglySorted lt ks -> (forall i, In i ks <-> k <= i < k + n) -> ks = seq k n).
      { clear. induction n as [|n IH]; intros ks k S H.
        - destruct ks as [|x ks]; [reflexivity|]. assert (Q := proj1 (H x) (or_introl eq_refl)). lia.
        - destruct ks as [|x ks]; [assert (Q := proj2 (H k) ltac:(lia)); destruct Q|]. inversion S as [|? ? S1 F]; subst. rewrite Forall_forall in F.
          assert (x = k). { assert (Q := proj1 (H x) (or_introl eq_refl)). destruct (proj2 (H k) ltac:(lia)) as [R|R]; [exact R|]. specialize (F k R). lia. } subst x.
          cbn [seq]. f_equal. apply IH; [exact S1|]. intros i. split.
          + intros I. assert (Q := proj1 (H i) (or_intror I)). specialize (F i I). lia.
          + intros I. destruct (proj2 (H i) ltac:(lia)) as [R|R]; [lia|exact R]. }
      apply G; [exact SK|]. intros i. rewrite IK. intuition lia. }
    split; [subst; now rewrite map_length, seq_length|]. subst. rewrite <- L. destruct (length sorted) as [|n]; [lia|]. cbn [seq map]. eauto.
Qed.
(** On python 3 no file can be read: the lines are bytes, and sort has no comparison function *)
Theorem C98_python3_refuted : ~ (exists include rows l, rows <> [] /\ load true include rows = Ok l) /\ ~ (exists tofloat ranges rows r, parseValues true tofloat ranges rows = Ok r).
Proof.
  split.
  - intros (include & rows & l & NE & E). destruct rows; [congruence|discriminate].
  - intros (tofloat & ranges & rows & r & E). unfold parseValues in E. destruct (mapM (mapM tofloat) rows); discriminate.
Qed.
(** A file without readings is an IndexError *)
Theorem C98_empty_refuted : ~ (forall tofloat ranges, exists r, parseValues false tofloat ranges [] = Ok r).
Proof. intros H. destruct (H (fun _ => Ok fone) []) as (r & E). discriminate. Qed.
Definition d_float (s : string) : res f64 := if String.eqb s "1" then Ok (fofZ 1) else if String.eqb s "2" then Ok (fofZ 2) else if String.eqb s "5" then Ok (fofZ 5) else Raise ValueError.
Example C98_nonvacuous :
  load false (fun _ => true) [["# t"; "x"]; ["5"; "1"]; ["2"; "2"]; ["5"; "2"]; ["1"; "5"]]%string = Ok [["5"; "1"]; ["2"; "2"]; ["5"; "2"]; ["1"; "5"]]%string /\
  (forall ranges out, out = (match parseValues false d_float ranges [["5"; "1"]; ["2"; "2"]; ["5"; "2"]; ["1"; "5"]]%string with
     | Ok (t, X) => (map ftrunc t, map (map ftrunc) X) | _ => ([], []) end) ->
     (ranges = [] -> out = ([0; 1; 4; 4], [[5]; [2]; [1]; [2]])%Z) /\ (ranges = [(1, Some 2); (0, Some 3); (3, None)]%Z -> out = ([0; 1; 4; 4], [[5]; [2]; [1]; [2]])%Z) /\
     (ranges = [(3, None); (1, Some 2)]%Z -> out = ([1; 4], [[2]; [2]])%Z)).
Proof. split; [reflexivity|]. intros ranges out ->. repeat split; intros ->; vm_compute; reflexivity. Qed.

(** ** C99: weights of temperature readings *)
Local Open Scope R_scope.
(** times or temperatures that are far from the limits of floats *)
Definition moderate (x : f64) : Prop := isfin x = true /\ Rabs (B2R x) <= bpow radix2 1000.
Lemma pow1002 : 4 * bpow radix2 1000 = bpow radix2 1002.
Proof. replace 4 with (bpow radix2 2) by (simpl; lra). rewrite <- bpow_plus. reflexivity. Qed.
Lemma crnd_small r : Rabs r <= bpow radix2 1002 -> - big < crnd r < big /\ Rabs (crnd r) <= bpow radix2 1002.
Proof.
  intros H. assert (B : bpow radix2 1002 < big) by (apply bpow_lt; lia). assert (C := crnd_bpow 1002 ltac:(lia)).
  assert (U : crnd r <= bpow radix2 1002) by (rewrite <- C; apply crnd_mono; apply Rabs_le_inv in H; lra).
  assert (L : - bpow radix2 1002 <= crnd r) by (rewrite <- C, <- crnd_opp; apply crnd_mono; apply Rabs_le_inv in H; lra).
  split; [lra|]. apply Rabs_le. lra.
Qed.
Lemma small_sub x y : isfin x = true -> isfin y = true -> Rabs (B2R x) <= 2 * bpow radix2 1000 -> Rabs (B2R y) <= 2 * bpow radix2 1000 ->
  isfin (fsub x y) = true /\ B2R (fsub x y) = crnd (B2R x - B2R y).
Proof.
  intros Fx Fy Bx By. destruct (fsub_key x y Fx Fy) as [N K]. assert (P := pow1002). apply Rabs_le_inv in Bx, By.
  destruct (crnd_small (B2R x - B2R y)) as [C _]; [apply Rabs_le; lra|]. assert (F : isfin (fsub x y) = true) by (apply fin_key; [exact N|now rewrite K]).
  split; [exact F|]. now rewrite <- K, key_fin.
Qed.
Lemma sub_pos x y : isfin x = true -> isfin y = true -> B2R x < B2R y -> 0 < crnd (B2R y - B2R x).
Proof.
  intros Fx Fy H. destruct (format_units (B2R x) (generic_format_B2R 53 1024 x)) as (a & Ea). destruct (format_units (B2R y) (generic_format_B2R 53 1024 y)) as (b & Eb).
  assert (P : 0 < bpow radix2 (-1074)) by apply bpow_gt_0.
  assert (L : (a < b)%Z). { apply lt_IZR. apply (Rmult_lt_reg_r (bpow radix2 (-1074))); [exact P|]. now rewrite <- Ea, <- Eb. }
  assert (D : bpow radix2 (-1074) <= B2R y - B2R x). { rewrite Ea, Eb, <- Rmult_minus_distr_r, <- minus_IZR. rewrite <- (Rmult_1_l (bpow radix2 (-1074))) at 1. apply Rmult_le_compat_r; [lra|]. apply (IZR_le 1). lia. }
  apply (Rlt_le_trans _ (bpow radix2 (-1074))); [exact P|]. rewrite <- (crnd_bpow (-1074)) at 1 by lia. now apply crnd_mono.
Qed.
Lemma half_val : isfin half = true /\ B2R half = / 2.
Proof. destruct (flit_val 1 (-1) ltac:(reflexivity) ltac:(lia)) as [A B]. split; [exact A|]. unfold half. rewrite B. simpl. lra. Qed.
Lemma half_mul v : moderate v -> isfin (fmul half v) = true /\ Rabs (B2R (fmul half v)) <= bpow radix2 1000.
Proof.
  intros [F B]. destruct half_val as [FH VH]. destruct (fmul_key half v FH F) as [N K]. rewrite VH in K. assert (C := crnd_bpow 1000 ltac:(lia)). assert (P := bpow_gt_0 radix2 1000). apply Rabs_le_inv in B.
  assert (BB : bpow radix2 1000 < big) by (apply bpow_lt; lia).
  assert (U : crnd (/ 2 * B2R v) <= bpow radix2 1000) by (rewrite <- C; apply crnd_mono; lra). assert (L : - bpow radix2 1000 <= crnd (/ 2 * B2R v)) by (rewrite <- C, <- crnd_opp; apply crnd_mono; lra).
  assert (FF : isfin (fmul half v) = true) by (apply fin_key; [exact N|rewrite K; lra]). split; [exact FF|]. rewrite <- (key_fin _ FF), K. apply Rabs_le. lra.
Qed.
Lemma lfilter_fin T : forall prev, Forall moderate T -> isfin prev = true -> Rabs (B2R prev) <= bpow radix2 1000 ->
  Forall (fun v => isfin v = true /\ Rabs (B2R v) <= 2 * bpow radix2 1000) (lfilter prev T).
Proof.
  induction T as [|v T IH]; intros prev F Fp Bp; cbn [lfilter]; [constructor|]. inversion F as [|? ? M F2]; subst. destruct (half_mul v M) as [Fh Bh]. constructor; [|now apply IH].
  destruct (fadd_key (fmul half v) prev Fh Fp) as [N K]. assert (C := crnd_bpow 1001 ltac:(lia)). assert (P2 : 2 * bpow radix2 1000 = bpow radix2 1001) by (replace 2 with (bpow radix2 1) by (simpl; lra); rewrite <- bpow_plus; reflexivity).
  apply Rabs_le_inv in Bh, Bp. assert (BB : bpow radix2 1001 < big) by (apply bpow_lt; lia).
  assert (U : crnd (B2R (fmul half v) + B2R prev) <= bpow radix2 1001) by (rewrite <- C; apply crnd_mono; lra). assert (L : - bpow radix2 1001 <= crnd (B2R (fmul half v) + B2R prev)) by (rewrite <- C, <- crnd_opp; apply crnd_mono; lra).
  assert (P := bpow_gt_0 radix2 1001). assert (FF : isfin (fadd (fmul half v) prev) = true) by (apply fin_key; [exact N|rewrite K; lra]). split; [exact FF|]. rewrite <- (key_fin _ FF), K, P2. apply Rabs_le. lra.
Qed.
Lemma lfilter_len T : forall p, length (lfilter p T) = length T.
Proof. induction T; intros p; cbn; auto. Qed.
Lemma diff_len x : length (diff x) = (length x - 1)%nat.
Proof. induction x as [|a x IH]; [reflexivity|]. destruct x as [|b x]; [reflexivity|]. cbn in *. rewrite IH. lia. Qed.
Lemma diff_fin x : Forall (fun v => isfin v = true /\ Rabs (B2R v) <= 2 * bpow radix2 1000) x -> Forall (fun v => isfin v = true) (diff x).
Proof.
  induction x as [|a x IH]; intros F; [constructor|]. destruct x as [|b x]; [constructor|]. inversion F as [|? ? [Fa Ba] F2]; subst. assert (F3 := F2). inversion F2 as [|? ? [Fb Bb] _]; subst.
  cbn [diff]. constructor; [now apply small_sub|]. now apply IH.
Qed.
Lemma diff_pos t : Forall moderate t -> Sorted (fun x y => fltb x y = true) t -> Forall (fun v => isfin v = true /\ 0 < B2R v) (diff t).
Proof.
  induction t as [|a t IH]; intros F S; [constructor|]. destruct t as [|b t]; [constructor|]. inversion F as [|? ? [Fa Ba] F2]; subst. assert (F3 := F2). inversion F2 as [|? ? [Fb Bb] _]; subst.
  inversion S as [|? ? S2 H]; subst. inversion H as [|? ? L]; subst. apply fltb_spec in L as (_ & _ & L). rewrite !key_fin in L by assumption. assert (P := bpow_gt_0 radix2 1000).
  cbn [diff]. constructor; [|now apply IH]. destruct (small_sub b a Fb Fa ltac:(lra) ltac:(lra)) as [Q V]. split; [exact Q|]. rewrite V. now apply sub_pos.
Qed.
Lemma hw_val : isfin halfWeight = true /\ 0 < B2R halfWeight.
Proof.
  split; [vm_compute; reflexivity|]. assert (H : fltb fzero halfWeight = true) by (vm_compute; reflexivity). apply fltb_spec in H as (_ & _ & H). rewrite key_fin in H by (vm_compute; reflexivity).
  rewrite key_fin in H by (vm_compute; reflexivity). exact H.
Qed.
Lemma fabs_fin d : isfin d = true -> isfin (fabs d) = true /\ 0 <= B2R (fabs d).
Proof. intros F. unfold fabs. split; [unfold isfin; rewrite is_finite_Babs; exact F|]. rewrite B2R_Babs. apply Rabs_pos. Qed.
Definition unit_range (x : f64) : Prop := fleb fzero x = true /\ fleb x fone = true.
Lemma ratio_unit d : isnan d = false -> unit_range (fdiv halfWeight (fadd (fabs d) halfWeight)).
Proof.
  intros N. destruct hw_val as [FH PH]. destruct (isfin_cases d N) as [F|[->| ->]]; [|split; vm_compute; reflexivity|split; vm_compute; reflexivity].
  destruct (fabs_fin d F) as [Fa Pa]. destruct (fadd_key _ _ Fa FH) as [Nu Ku]. destruct (isfin_cases _ Nu) as [Fu|[E|E]]; [| rewrite E; split; vm_compute; reflexivity|rewrite E; split; vm_compute; reflexivity].
  rewrite key_fin in Ku by exact Fu. assert (U : B2R halfWeight <= B2R (fadd (fabs d) halfWeight)) by (rewrite Ku; rewrite <- (crnd_B2R halfWeight) at 1; apply crnd_mono; lra).
  destruct (fdiv_key halfWeight _ FH Fu ltac:(lra)) as [Nq Kq]. set (u := B2R (fadd (fabs d) halfWeight)) in *.
  assert (Q0 : 0 <= B2R halfWeight / u) by (assert (0 < / u) by (apply Rinv_0_lt_compat; lra); unfold Rdiv; nra).
  assert (Q1 : B2R halfWeight / u <= 1) by (apply (Rmult_le_reg_r u); [lra|]; unfold Rdiv; rewrite Rmult_assoc, Rinv_l by lra; lra).
  split; apply fleb_spec; (split; [first [reflexivity|exact Nq]|]; split; [first [exact Nq|reflexivity]|]); rewrite Kq.
  - rewrite key_fzero. now apply crnd_ge0.
  - rewrite key_fone, <- crnd_1. now apply crnd_mono.
Qed.
Lemma unit_fin w : unit_range w -> isfin w = true /\ 0 <= B2R w <= 1.
Proof.
  intros [A B]. apply fleb_spec in A as (_ & N & A). apply fleb_spec in B as (_ & _ & B). rewrite key_fzero in A. rewrite key_fone in B. assert (P : 1 < big) by (change 1 with (bpow radix2 0); apply bpow_lt; lia).
  assert (F : isfin w = true) by (apply fin_key; [exact N|lra]). split; [exact F|]. rewrite key_fin in A, B by exact F. lra.
Qed.
Lemma scale_range m z w : (0 < m < 100)%Z -> (0 < z)%Z -> (m * z < 100)%Z -> isfin w = true -> 0 <= B2R w <= IZR z -> isfin (fmul (fofZ m) w) = true /\ 0 <= B2R (fmul (fofZ m) w) <= IZR (m * z).
Proof.
  intros M Z MZ F R. destruct (fofZ_val m ltac:(lia)) as [Fm Vm]. destruct (fmul_key (fofZ m) w Fm F) as [N K]. rewrite Vm in K.
  assert (IM : 0 < IZR m) by (apply (IZR_lt 0); lia). assert (C : crnd (IZR (m * z)) = IZR (m * z)) by (destruct (fofZ_val (m * z) ltac:(lia)) as [_ V]; rewrite <- V; apply crnd_B2R).
  assert (L : 0 <= crnd (IZR m * B2R w)) by (apply crnd_ge0; nra). assert (U : crnd (IZR m * B2R w) <= IZR (m * z)) by (rewrite <- C; apply crnd_mono; rewrite mult_IZR; nra).
  assert (BG : IZR (m * z) < big). { apply (Rlt_trans _ (IZR 100)); [apply IZR_lt; lia|]. apply (Rlt_le_trans _ (bpow radix2 7)); [simpl; lra|apply bpow_le; lia]. }
  assert (FF : isfin (fmul (fofZ m) w) = true) by (apply fin_key; [exact N|rewrite K; lra]). split; [exact FF|]. rewrite <- (key_fin _ FF), K. lra.
Qed.
Lemma fle_fin m w : (0 <= m < 100)%Z -> isfin w = true -> 0 <= B2R w <= IZR m -> fleb fzero w = true /\ fleb w (fofZ m) = true.
Proof.
  intros M F R. destruct (fofZ_val m ltac:(lia)) as [Fm Vm]. split; apply fleb_spec; (split; [first [reflexivity|now apply nan_fin]|]; split; [first [now apply nan_fin]|]).
  - rewrite key_fzero, key_fin by exact F. lra.
  - rewrite !key_fin by assumption. rewrite Vm. lra.
Qed.
Lemma cold_range T w : isnan T = false -> unit_range w ->
  let c := cold T w in fleb fzero c = true /\ (fleb (fofZ 4) T = true -> fleb c fone = true) /\ (fleb (fofZ (-5)) T = true -> fleb c (fofZ 10) = true) /\ fleb c (fofZ 30) = true.
Proof.
  intros N U. destruct (unit_fin w U) as [F R]. unfold cold.
  assert (N4 : isnan (fofZ 4) = false) by reflexivity. assert (N5 : isnan (fofZ (-5)) = false) by reflexivity.
  assert (X4 : fleb (fofZ 4) T = true <-> fltb T (fofZ 4) = false) by (rewrite (fltb_negb T (fofZ 4) N N4); destruct (fleb (fofZ 4) T); intuition discriminate).
  assert (X5 : fleb (fofZ (-5)) T = true <-> fltb T (fofZ (-5)) = false) by (rewrite (fltb_negb T (fofZ (-5)) N N5); destruct (fleb (fofZ (-5)) T); intuition discriminate).
  assert (LESS : fltb T (fofZ (-5)) = true -> fltb T (fofZ 4) = true) by (intros H; apply (fltb_trans _ (fofZ (-5))); [exact H|vm_compute; reflexivity]).
  destruct (scale_range 10 1 w ltac:(lia) ltac:(lia) ltac:(lia) F R) as [F10 R10]. destruct (scale_range 3 10 _ ltac:(lia) ltac:(lia) ltac:(lia) F10 R10) as [F30 R30]. cbn [Z.mul] in *.
  assert (Lt : forall a b x, (a <= b)%Z -> 0 <= x <= IZR a -> 0 <= x <= IZR b) by (intros a b x H [H1 H2]; split; [exact H1|]; apply (Rle_trans _ _ _ H2); now apply IZR_le).
  change fone with (fofZ 1). destruct (fltb T (fofZ 4)) eqn:E4, (fltb T (fofZ (-5))) eqn:E5; try discriminate (LESS eq_refl); cbv zeta.
  - destruct (fle_fin 30 _ ltac:(lia) F30 R30) as [A B]. split; [exact A|]. split; [intros H; apply X4 in H; discriminate|]. split; [intros H; apply X5 in H; discriminate|exact B].
  - destruct (fle_fin 10 _ ltac:(lia) F10 R10) as [A B]. destruct (fle_fin 30 _ ltac:(lia) F10 (Lt 10%Z 30%Z _ ltac:(lia) R10)) as [_ D]. split; [exact A|]. split; [intros H; apply X4 in H; discriminate|]. split; [intros _; exact B|exact D].
  - destruct (fle_fin 1 _ ltac:(lia) F R) as [A B]. destruct (fle_fin 10 _ ltac:(lia) F (Lt 1%Z 10%Z _ ltac:(lia) R)) as [_ C]. destruct (fle_fin 30 _ ltac:(lia) F (Lt 1%Z 30%Z _ ltac:(lia) R)) as [_ D]. repeat split; auto.
Qed.
(** With moderate readings at strictly increasing times there is one weight for each; none is
    NaN or negative, none above 1, 10 for readings below 4 degrees, 30 below -5 degrees; the
    first reading's weight is zero *)
Theorem C99_weights pow3 T t : (forall x, unit_range x -> unit_range (pow3 x)) -> Forall moderate T -> Forall moderate t -> Sorted (fun x y => fltb x y = true) t -> length T = length t -> T <> [] ->
  let W := setWeights pow3 T t in
  length W = length T /\ feqb (nth 0 W fnan) fzero = true /\
  forall k x w, nth_error T k = Some x -> nth_error W k = Some w ->
    fleb fzero w = true /\ (fleb (fofZ 4) x = true -> fleb w fone = true) /\ (fleb (fofZ (-5)) x = true -> fleb w (fofZ 10) = true) /\ fleb w (fofZ 30) = true.
Proof.
  intros P3 FT Ft S LE NE W. set (drift := map2 fdiv (diff (lfilter fzero T)) (diff t)).
  assert (M2L : forall (A B C : Type) (f : A -> B -> C) a b, length (map2 f a b) = Nat.min (length a) (length b)) by (clear; intros A B C f; induction a as [|x a IH]; intros [|y b]; cbn; auto).
  assert (LD : length drift = (length T - 1)%nat) by (unfold drift; rewrite M2L, !diff_len, lfilter_len; lia).
  assert (LW : length W = length T). { unfold W, setWeights. rewrite M2L. cbn [length]. rewrite map_length. fold drift. rewrite LD. destruct T; [congruence|]. cbn. lia. }
  assert (ZF : isfin fzero = true /\ Rabs (B2R fzero) <= bpow radix2 1000). { split; [reflexivity|]. change (B2R fzero) with 0. rewrite Rabs_R0. apply bpow_ge_0. }
  assert (DN : Forall (fun d => isnan d = false) drift).
  { assert (A := diff_fin _ (lfilter_fin T fzero FT (proj1 ZF) (proj2 ZF))). assert (B := diff_pos t Ft S). unfold drift. revert A B. generalize (diff (lfilter fzero T)) (diff t). induction l as [|a l IH]; intros [|b m] A B; cbn [map2]; try constructor.
    - inversion A; inversion B as [|? ? [Fb Pb] ?]; subst. apply fdiv_key; auto. lra.
    - apply IH; [now inversion A|now inversion B]. }
  assert (WU : Forall unit_range (fzero :: map (drift_weight pow3) drift)).
  { constructor; [split; vm_compute; reflexivity|]. apply Forall_forall. intros w I. apply in_map_iff in I as (d & <- & I). rewrite Forall_forall in DN. apply P3, ratio_unit. auto. }
  assert (TN : Forall (fun x => isnan x = false) T) by (eapply Forall_impl; [|exact FT]; intros x [F _]; now apply nan_fin).
  split; [exact LW|]. split.
  - unfold W, setWeights. destruct T as [|x T]; [congruence|]. cbn [map2 nth]. unfold cold. destruct (fltb x (fofZ 4)), (fltb x (fofZ (-5))); vm_compute; reflexivity.
  - intros k x w X Y. unfold W, setWeights in Y. fold drift in Y. revert X Y. generalize dependent (fzero :: map (drift_weight pow3) drift). clear - TN. intros l U. revert l U k. induction TN as [|y T Ny F IH]; intros [|u l] U k X Y; try (destruct k; discriminate).
    inversion U as [|? ? Uu Ul]; subst. destruct k as [|k]; cbn in X, Y; [injection X as ->; injection Y as <-; now apply cold_range|]. eapply IH; eauto.
Qed.
(** Two equal readings at the same time give a weight of NaN *)
Lemma hw_key : key halfWeight = key (flit 5764607523034235 (-60)).
Proof. assert (H : feqb halfWeight (flit 5764607523034235 (-60)) = true) by (vm_compute; reflexivity). apply feqb_spec in H. tauto. Qed.
Lemma hw_half : key (fdiv halfWeight (fadd halfWeight halfWeight)) = key (flit 1 (-1)).
Proof. assert (H : feqb (fdiv halfWeight (fadd halfWeight halfWeight)) (flit 1 (-1)) = true) by (vm_compute; reflexivity). apply feqb_spec in H. tauto. Qed.
Lemma ratio_half d : isnan d = false ->
  (fleb (fabs d) (flit 5764607523034235 (-60)) = true -> fleb (flit 1 (-1)) (fdiv halfWeight (fadd (fabs d) halfWeight)) = true) /\
  (fleb (flit 5764607523034235 (-60)) (fabs d) = true -> fleb (fdiv halfWeight (fadd (fabs d) halfWeight)) (flit 1 (-1)) = true).
Proof.
  intros N. destruct hw_val as [FH PH]. destruct (isfin_cases d N) as [F|[->| ->]]; [|split; vm_compute; auto; intros H; exact H..].
  destruct (fabs_fin d F) as [Fa Pa]. destruct (fadd_key _ _ Fa FH) as [Nu Ku].
  destruct (isfin_cases _ Nu) as [Fu|[E|E]].
  - rewrite key_fin in Ku by exact Fu.
    assert (U : B2R halfWeight <= B2R (fadd (fabs d) halfWeight)) by (rewrite Ku; rewrite <- (crnd_B2R halfWeight) at 1; apply crnd_mono; lra).
    destruct (fdiv_key halfWeight _ FH Fu ltac:(lra)) as [Nq Kq].
    assert (F2 : isfin (fadd halfWeight halfWeight) = true) by (vm_compute; reflexivity).
    destruct (fadd_key _ _ FH FH) as [_ K2]. rewrite key_fin in K2 by exact F2.
    assert (U2 : B2R halfWeight <= B2R (fadd halfWeight halfWeight)) by (rewrite K2; rewrite <- (crnd_B2R halfWeight) at 1; apply crnd_mono; lra).
    destruct (fdiv_key halfWeight _ FH F2 ltac:(lra)) as [_ Kh]. rewrite hw_half in Kh.
    set (u := B2R (fadd (fabs d) halfWeight)) in *. set (u2 := B2R (fadd halfWeight halfWeight)) in *.
    assert (NH : isnan (flit 1 (-1)) = false) by (vm_compute; reflexivity).
    split; intros H; apply fleb_spec in H as (_ & _ & H); rewrite <- hw_key, !key_fin in H by assumption; apply fleb_spec; (split; [assumption|split; [assumption|]]); rewrite Kq, Kh; apply crnd_mono.
    + assert (C : u <= u2) by (rewrite Ku, K2; apply crnd_mono; lra). apply Rmult_le_compat_l; [lra|]. apply Rinv_le; lra.
    + assert (C : u2 <= u) by (rewrite Ku, K2; apply crnd_mono; lra). apply Rmult_le_compat_l; [lra|]. apply Rinv_le; lra.
  - rewrite E. split; [|intros _; vm_compute; reflexivity]. intros H. exfalso. apply fleb_spec in H as (_ & _ & H). rewrite <- hw_key, !key_fin in H by assumption.
    assert (KF : key (fadd (fabs d) halfWeight) <= key (fadd halfWeight halfWeight)) by (rewrite Ku; destruct (fadd_key _ _ FH FH) as [_ ->]; apply crnd_mono; lra).
    rewrite E in KF. assert (F2 : isfin (fadd halfWeight halfWeight) = true) by (vm_compute; reflexivity). rewrite (key_fin _ F2) in KF. change (key finf) with big in KF. assert (B := fin_bound (fadd halfWeight halfWeight)). lra.
  - exfalso. rewrite E in Ku. change (key fninf) with (- big) in Ku. assert (Z : 0 <= crnd (B2R (fabs d) + B2R halfWeight)) by (apply crnd_ge0; lra). assert (B := big_pos). lra.
Qed.
Lemma lfilter_nth T : forall p k b c, nth_error T k = Some b -> nth_error T (S k) = Some c -> nth_error (lfilter p T) (S k) = Some (fadd (fmul half c) (fmul half b)).
Proof.
  induction T as [|v T IH]; intros p k b c H1 H2; [destruct k; discriminate|]. destruct k as [|k].
  - injection H1 as ->. destruct T as [|w T]; [discriminate|]. injection H2 as ->. reflexivity.
  - cbn [lfilter]. change (nth_error (lfilter (fmul half v) T) (S k) = Some (fadd (fmul half c) (fmul half b))). now apply IH.
Qed.
Lemma diff_nth x : forall k a b, nth_error x k = Some a -> nth_error x (S k) = Some b -> nth_error (diff x) k = Some (fsub b a).
Proof.
  induction x as [|v x IH]; intros k a b H1 H2; [destruct k; discriminate|]. destruct x as [|w x]; [destruct k; discriminate|]. destruct k as [|k].
  - injection H1 as ->. injection H2 as ->. reflexivity.
  - change (nth_error (diff (w :: x)) k = Some (fsub b a)). now apply IH.
Qed.
Lemma map2_nth {A B C} (f : A -> B -> C) l : forall m k a b, nth_error l k = Some a -> nth_error m k = Some b -> nth_error (map2 f l m) k = Some (f a b).
Proof.
  induction l as [|x l IH]; intros m k a b H1 H2; [destruct k; discriminate|]. destruct m as [|y m]; [destruct k; discriminate|]. destruct k as [|k].
  - injection H1 as ->. injection H2 as ->. reflexivity.
  - apply IH; assumption.
Qed.
(** the weight of a reading of 4 degrees or more is the cube of a ratio that is half or more up
    to 0.005 degrees per second of drift and half or less from there; colder readings have it
    times 10, times 30 below -5 *)
Theorem C99_drift pow3 T t k a b c s u : nth_error T k = Some a -> nth_error T (S k) = Some b -> nth_error T (S (S k)) = Some c ->
  nth_error t (S k) = Some s -> nth_error t (S (S k)) = Some u ->
  let avg x y := fadd (fmul (flit 1 (-1)) y) (fmul (flit 1 (-1)) x) in
  let drift := fdiv (fsub (avg b c) (avg a b)) (fsub u s) in
  isnan drift = false ->
  exists r, unit_range r /\
    (fleb (fabs drift) (flit 5764607523034235 (-60)) = true -> fleb (flit 1 (-1)) r = true) /\
    (fleb (flit 5764607523034235 (-60)) (fabs drift) = true -> fleb r (flit 1 (-1)) = true) /\
    nth_error (setWeights pow3 T t) (S (S k)) = Some (
      if fltb c (fofZ (-5)) then fmul (fofZ 3) (fmul (fofZ 10) (pow3 r)) else if fltb c (fofZ 4) then fmul (fofZ 10) (pow3 r) else pow3 r).
Proof.
  intros A B C Ts Tu avg drift N. exists (fdiv halfWeight (fadd (fabs drift) halfWeight)). destruct (ratio_half drift N) as [R1 R2].
  split; [now apply ratio_unit|]. split; [exact R1|]. split; [exact R2|]. clear R1 R2.
  assert (D : nth_error (map (drift_weight pow3) (map2 fdiv (diff (lfilter fzero T)) (diff t))) (S k) = Some (drift_weight pow3 drift)).
  { rewrite nth_error_map. erewrite map2_nth; [reflexivity| |]; apply diff_nth; try (apply lfilter_nth); eassumption. }
  unfold setWeights. rewrite (map2_nth cold T (fzero :: map (drift_weight pow3) (map2 fdiv (diff (lfilter fzero T)) (diff t))) (S (S k)) c (drift_weight pow3 drift) C D).
  unfold cold, drift_weight.
  destruct (fltb c (fofZ (-5))) eqn:E5; [|reflexivity].
  assert (E4 : fltb c (fofZ 4) = true); [|now rewrite E4].
  apply (fltb_trans _ (fofZ (-5))); [exact E5|]. vm_compute. reflexivity.
Qed.
Example C99_drift_ex : map (fun w => ftrunc (fmul (fofZ 1000) w)) (setWeights (fun x => x) [fofZ 20; fofZ 20; fofZ 20; flit 161 (-3); fofZ 3; fofZ (-8)] [fofZ 0; fofZ 10; fofZ 20; fofZ 30; fofZ 40; fofZ 50]) = [0; 4; 1000; 444; 58; 106]%Z.
Proof. vm_compute. reflexivity. Qed.
Theorem C99_repeated_refuted : ~ (forall pow3 T t, (forall x, isnan (pow3 x) = isnan x) -> Forall moderate T -> Forall moderate t -> Sorted (fun x y => fleb x y = true) t -> length T = length t ->
  Forall (fun w => isnan w = false) (setWeights pow3 T t)).
Proof.
  intros H. assert (M : forall m, (Z.abs m < 100)%Z -> moderate (fofZ m)).
  { intros m B. destruct (fofZ_val m ltac:(lia)) as [F V]. split; [exact F|]. rewrite V, <- abs_IZR. apply (Rle_trans _ (IZR 100)); [apply IZR_le; lia|]. apply (Rle_trans _ (bpow radix2 7)); [simpl; lra|apply bpow_le; lia]. }
  specialize (H (fun x => x) [fofZ 20; fofZ 20; fofZ 20] [fofZ 0; fofZ 1; fofZ 1] ltac:(reflexivity) ltac:(repeat (apply Forall_cons; [apply M; lia|]); apply Forall_nil) ltac:(repeat (apply Forall_cons; [apply M; lia|]); apply Forall_nil)).
  assert (S : Sorted (fun x y => fleb x y = true) [fofZ 0; fofZ 1; fofZ 1]) by (repeat constructor; vm_compute; reflexivity). specialize (H S eq_refl).
  assert (C : forallb (fun w => negb (isnan w)) (setWeights (fun x => x) [fofZ 20; fofZ 20; fofZ 20] [fofZ 0; fofZ 1; fofZ 1]) = false) by (vm_compute; reflexivity).
  rewrite (proj2 (forallb_forall _ _)) in C; [discriminate|]. intros w I. rewrite Forall_forall in H. now rewrite (H w I).
Qed.
Example C99_nonvacuous :
  Sorted (fun x y => fltb x y = true) [fofZ 0; fofZ 10; fofZ 20] /\
  map (fun w => ftrunc (fmul (fofZ 1000) w)) (setWeights (fun x => x) [fofZ 20; fofZ 20; fofZ (-20)] [fofZ 0; fofZ 10; fofZ 20]) = [0; 4; 74]%Z.
Proof. split; [repeat constructor; vm_compute; reflexivity|vm_compute; reflexivity]. Qed.

Print Assumptions C98_load.
Print Assumptions C98_parse.
Print Assumptions C98_times.
Print Assumptions C98_python3_refuted.
Print Assumptions C98_empty_refuted.
Print Assumptions C99_weights.
Print Assumptions C99_drift.
Print Assumptions C99_repeated_refuted.
