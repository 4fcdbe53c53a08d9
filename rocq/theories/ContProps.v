(** * The population's locks (C89) and sequence methods (C90). *)
From Coq Require Import Bool Arith ZArith List Lia.
From Verif Require Import Flt Py MapModel MapProps IndivModel ContModel.
Import ListNotations.
Local Open Scope nat_scope.

(** ** Vocabulary of the statements *)
Definition in_range (n : nat) (k : Z) : Prop := (0 <= k < Z.of_nat n)%Z.
Definition lk (ls : list dlock) (j : nat) : dlock := nth j ls free_lock.
(** slot [j] released n times *)
Fixpoint releases (n j : nat) (ls : list dlock) : list dlock :=
  match n with O => ls | S n => fst (release (releases n j ls) [Z.of_nat j]) end.
Definition is_free (l : dlock) : Prop := l = free_lock.

(** ** Lemmas *)
Lemma pos_in n k : in_range n k -> pos n k = Ok (Z.to_nat k).
Proof. unfold in_range. intros H. apply pos_spec. lia. Qed.
Lemma lk_upd ls j x i : j < length ls -> lk (upd j x ls) i = if i =? j then x else lk ls i.
Proof. intros L. unfold lk. apply upd_nth. exact L. Qed.
Lemma list_lk ls ls' : length ls = length ls' -> (forall j, j < length ls -> lk ls j = lk ls' j) -> ls = ls'.
Proof. intros L H. apply (nth_ext ls ls' free_lock free_lock L H). Qed.

Lemma lock_each_spec r all : NoDup all -> forall ks ls, (forall k, In k ks -> In k all) -> NoDup ks -> Forall (in_range (length ls)) ks ->
  exists ls', lock_each ls r all ks = (ls', Ok WhenAll) /\ length ls' = length ls /\
    forall j, j < length ls -> lk ls' j = if in_dec Z.eq_dec (Z.of_nat j) ks then acquire r (lk ls j) else lk ls j.
Proof.
  intros NA. induction ks as [|k ks IH]; intros ls S ND R.
  - exists ls. cbn. repeat split; auto.
  - inversion ND; subst. inversion R; subst. cbn [lock_each].
    replace (1 <? count_occ Z.eq_dec all k) with false.
    2:{ symmetry. apply Nat.ltb_ge. apply (proj1 (NoDup_count_occ Z.eq_dec all) NA). }
    assert (K := H3). unfold in_range in K.
    replace (Z.leb (Z.of_nat (length ls)) k) with false by (symmetry; apply Z.leb_gt; lia).
    rewrite pos_in by exact H3. fold (lk ls (Z.to_nat k)).
    destruct (IH (upd (Z.to_nat k) (acquire r (lk ls (Z.to_nat k))) ls)) as (ls' & E & L & P); auto.
    { intros; apply S; right; auto. } { rewrite upd_length. exact H4. }
    rewrite upd_length in L. exists ls'. split; [exact E|]. split; [exact L|]. intros j J.
    rewrite P by (rewrite upd_length; exact J). rewrite lk_upd by lia.
    destruct (Nat.eqb_spec j (Z.to_nat k)) as [->|D].
    + rewrite Z2Nat.id by lia. destruct (in_dec Z.eq_dec k ks) as [I|I]; [contradiction|].
      destruct (in_dec Z.eq_dec k (k :: ks)) as [I'|I']; [reflexivity|destruct I'; left; reflexivity].
    + destruct (in_dec Z.eq_dec (Z.of_nat j) ks) as [I|I]; destruct (in_dec Z.eq_dec (Z.of_nat j) (k :: ks)) as [I'|I']; auto.
      * destruct I'. right. exact I.
      * destruct I' as [->|I']; [|contradiction]. rewrite Nat2Z.id in D. lia.
Qed.
Lemma release_each_spec ks : forall ls, NoDup ks -> Forall (in_range (length ls)) ks ->
  exists ls', release_each ls ks = (ls', Ok tt) /\ length ls' = length ls /\
    forall j, j < length ls -> lk ls' j = if in_dec Z.eq_dec (Z.of_nat j) ks then try_release (lk ls j) else lk ls j.
Proof.
  induction ks as [|k ks IH]; intros ls ND R.
  - exists ls. cbn. repeat split; auto.
  - inversion ND; subst. inversion R; subst. cbn [release_each]. assert (K := H3). unfold in_range in K.
    rewrite pos_in by exact H3. fold (lk ls (Z.to_nat k)).
    destruct (IH (upd (Z.to_nat k) (try_release (lk ls (Z.to_nat k))) ls)) as (ls' & E & L & P); auto.
    { rewrite upd_length. exact H4. }
    rewrite upd_length in L. exists ls'. split; [exact E|]. split; [exact L|]. intros j J.
    rewrite P by (rewrite upd_length; exact J). rewrite lk_upd by lia.
    destruct (Nat.eqb_spec j (Z.to_nat k)) as [->|D].
    + rewrite Z2Nat.id by lia. destruct (in_dec Z.eq_dec k ks) as [I|I]; [contradiction|].
      destruct (in_dec Z.eq_dec k (k :: ks)) as [I'|I']; [reflexivity|destruct I'; left; reflexivity].
    + destruct (in_dec Z.eq_dec (Z.of_nat j) ks) as [I|I]; destruct (in_dec Z.eq_dec (Z.of_nat j) (k :: ks)) as [I'|I']; auto.
      * destruct I'. right. exact I.
      * destruct I' as [->|I']; [|contradiction]. rewrite Nat2Z.id in D. lia.
Qed.
Lemma fired_spec ls r : fired ls r WhenAll = true <-> forall j, j < length ls -> ~ In r (waiting (lk ls j)).
Proof.
  cbn. rewrite forallb_forall. split.
  - intros H j J I. specialize (H (lk ls j) (nth_In ls free_lock J)). apply negb_true_iff in H.
    assert (X : existsb (Nat.eqb r) (waiting (lk ls j)) = true) by (apply existsb_exists; exists r; split; [exact I|apply Nat.eqb_refl]). congruence.
  - intros H l I. destruct (In_nth ls l free_lock I) as (j & J & E). apply negb_true_iff. apply not_true_is_false. intros X.
    apply existsb_exists in X. destruct X as (x & XI & XE). apply Nat.eqb_eq in XE. subst x. apply (H j J). unfold lk. rewrite E. exact XI.
Qed.

(** ** C89: locking *)
(** A request for different slots gets each one that is free and is put at the end of
    the queue of each one that is not.  No other slot is affected.  The Deferred
    fires at once exactly if all were free. *)
Theorem C89_lock running ls r ks : running <> Some false -> NoDup ks -> Forall (in_range (length ls)) ks ->
  exists ls', lock running ls r ks = (ls', Ok WhenAll) /\ length ls' = length ls /\
    (forall j, j < length ls -> ~ In (Z.of_nat j) ks -> lk ls' j = lk ls j) /\
    (forall j, j < length ls -> In (Z.of_nat j) ks -> holder (lk ls j) = None ->
       holder (lk ls' j) = Some r /\ waiting (lk ls' j) = waiting (lk ls j)) /\
    (forall j h, j < length ls -> In (Z.of_nat j) ks -> holder (lk ls j) = Some h ->
       holder (lk ls' j) = Some h /\ waiting (lk ls' j) = waiting (lk ls j) ++ [r]) /\
    ((forall j, ~ In r (waiting (lk ls j))) ->
     (fired ls' r WhenAll = true <-> forall j, j < length ls -> In (Z.of_nat j) ks -> holder (lk ls j) = None)).
Proof.
  intros RN ND R. destruct (lock_each_spec r ks ND ks ls (fun _ i => i) ND R) as (ls' & E & L & P).
  exists ls'. split; [destruct running as [[]|]; cbn; auto; congruence|]. split; [exact L|].
  assert (P1 : forall j, j < length ls -> ~ In (Z.of_nat j) ks -> lk ls' j = lk ls j).
  { intros j J N. rewrite P by exact J. destruct (in_dec Z.eq_dec (Z.of_nat j) ks); [contradiction|reflexivity]. }
  assert (P2 : forall j, j < length ls -> In (Z.of_nat j) ks -> lk ls' j = acquire r (lk ls j)).
  { intros j J N. rewrite P by exact J. destruct (in_dec Z.eq_dec (Z.of_nat j) ks); [reflexivity|contradiction]. }
  split; [exact P1|]. split; [|split].
  - intros j J I F. rewrite P2 by auto. unfold acquire. rewrite F. auto.
  - intros j h J I F. rewrite P2 by auto. unfold acquire. rewrite F. auto.
  - intros FR. rewrite fired_spec, L. split.
    + intros H j J I. specialize (H j J). rewrite P2 in H by auto. unfold acquire in H. destruct (holder (lk ls j)); [|reflexivity].
      destruct H. cbn. apply in_or_app. right. left. reflexivity.
    + intros H j J I. destruct (in_dec Z.eq_dec (Z.of_nat j) ks) as [K|K].
      * rewrite P2 in I by auto. unfold acquire in I. rewrite (H j J K) in I. exact (FR j I).
      * rewrite P1 in I by auto. exact (FR j I).
Qed.
(** Releasing hands each of the slots to the one waiting longest, or makes it free; a
    free one, and all other slots, stay as they are *)
Theorem C89_release ls ks : ks <> [] -> NoDup ks -> Forall (in_range (length ls)) ks ->
  exists ls', release ls ks = (ls', Ok tt) /\ length ls' = length ls /\
    forall j, j < length ls ->
      (~ In (Z.of_nat j) ks \/ holder (lk ls j) = None -> lk ls' j = lk ls j) /\
      (In (Z.of_nat j) ks -> holder (lk ls j) <> None ->
         match waiting (lk ls j) with
         | [] => is_free (lk ls' j)
         | r :: rest => holder (lk ls' j) = Some r /\ waiting (lk ls' j) = rest
         end).
Proof.
  intros NE ND R. destruct (release_each_spec ks ls ND R) as (ls' & E & L & P). exists ls'.
  split; [destruct ks; [congruence|exact E]|]. split; [exact L|]. intros j J. rewrite P by exact J.
  destruct (in_dec Z.eq_dec (Z.of_nat j) ks) as [I|I]; split.
  - intros [H|H]; [contradiction|]. unfold try_release. rewrite H. reflexivity.
  - intros _ H. unfold try_release. destruct (holder (lk ls j)); [|congruence]. destruct (waiting (lk ls j)); [reflexivity|cbn; auto].
  - auto.
  - contradiction.
Qed.
(** Locking free slots and releasing them leaves everything as it was *)
Theorem C89_lock_release running ls r ks : running <> Some false -> ks <> [] -> NoDup ks -> Forall (in_range (length ls)) ks ->
  (forall k, In k ks -> is_free (lk ls (Z.to_nat k))) ->
  release (fst (lock running ls r ks)) ks = (ls, Ok tt).
Proof.
  intros RN NE ND R FR. destruct (lock_each_spec r ks ND ks ls (fun _ i => i) ND R) as (ls1 & E & L & P).
  assert (E1 : fst (lock running ls r ks) = ls1) by (destruct running as [[]|]; cbn; rewrite ?E; auto; congruence). rewrite E1.
  destruct (release_each_spec ks ls1 ND) as (ls2 & E2 & L2 & P2); [rewrite L; exact R|].
  assert (X : release ls1 ks = (ls2, Ok tt)) by (destruct ks; [congruence|exact E2]). rewrite X. f_equal.
  apply list_lk; [congruence|]. intros j J. rewrite L2 in J. rewrite P2 by exact J. rewrite P by lia.
  destruct (in_dec Z.eq_dec (Z.of_nat j) ks) as [I|I]; [|reflexivity].
  specialize (FR _ I). rewrite Nat2Z.id in FR. rewrite FR. reflexivity.
Qed.
(** Requests get a slot in the order in which they asked *)
Theorem C89_first_come ls j h w rest : j < length ls -> lk ls j = mkLock (Some h) (w ++ rest) ->
  forall r rest', rest = r :: rest' ->
  lk (releases (S (length w)) j ls) j = mkLock (Some r) rest'.
Proof.
  intros J E r rest' ->.
  assert (ST : forall ls, j < length ls -> length (fst (release ls [Z.of_nat j])) = length ls /\ lk (fst (release ls [Z.of_nat j])) j = try_release (lk ls j)).
  { intros l Jl. destruct (release_each_spec [Z.of_nat j] l) as (l' & El & Ll & Pl).
    - constructor; [intros []|constructor].
    - constructor; [unfold in_range; lia|constructor].
    - cbn [release]. rewrite El. cbn [fst]. split; [exact Ll|]. rewrite Pl by exact Jl.
      destruct (in_dec Z.eq_dec (Z.of_nat j) [Z.of_nat j]) as [I|I]; [reflexivity|destruct I; left; reflexivity]. }
  assert (LN : forall n, length (releases n j ls) = length ls).
  { induction n as [|n IH]; [reflexivity|]. cbn [releases]. rewrite (proj1 (ST _ ltac:(rewrite IH; exact J))). exact IH. }
  assert (G : forall n, n <= length w -> exists h', lk (releases n j ls) j = mkLock (Some h') (skipn n w ++ r :: rest')).
  { induction n as [|n IH]; intros Ln; [exists h; exact E|]. destruct IH as [h' E']; [lia|].
    cbn [releases]. rewrite (proj2 (ST _ ltac:(rewrite LN; exact J))), E'. unfold try_release. cbn.
    destruct (skipn n w) as [|x t] eqn:S; [apply (f_equal (@length nat)) in S; rewrite skipn_length in S; cbn in S; lia|].
    exists x. cbn. f_equal. f_equal. clear - S. revert n S. induction w as [|a w IH]; intros [|n] S; cbn in *; try congruence. apply IH. exact S. }
  destruct (G (length w) (Nat.le_refl _)) as [h' E']. cbn [releases]. rewrite (proj2 (ST _ ltac:(rewrite LN; exact J))), E'.
  rewrite skipn_all. reflexivity.
Qed.
(** While shutting down nothing is acquired, and the Deferred has fired *)
Theorem C89_shutting_down ls r ks : lock (Some false) ls r ks = (ls, Ok Immediate) /\ fired ls r Immediate = true.
Proof. split; reflexivity. Qed.
(** Asking for the same slot twice is refused *)
Theorem C89_twice running ls r ks : running <> Some false -> ~ NoDup ks -> Forall (in_range (length ls)) ks ->
  snd (lock running ls r ks) = Raise ValueError.
Proof.
  intros RN ND R. assert (E : snd (lock running ls r ks) = snd (lock_each ls r ks ks)) by (destruct running as [[]|]; congruence || reflexivity). rewrite E.
  assert (D : exists k, In k ks /\ 1 < count_occ Z.eq_dec ks k).
  { clear - ND. destruct (Exists_dec (fun k => 1 < count_occ Z.eq_dec ks k) ks) as [X|X].
    - intros k. destruct (lt_dec 1 (count_occ Z.eq_dec ks k)); [left|right]; auto.
    - apply Exists_exists in X. exact X.
    - destruct ND. apply (NoDup_count_occ Z.eq_dec). intros k. destruct (in_dec Z.eq_dec k ks) as [I|I].
      + assert (~ 1 < count_occ Z.eq_dec ks k) by (intros L; apply X, Exists_exists; eauto). lia.
      + apply (count_occ_not_In Z.eq_dec) in I. lia. }
  destruct D as (k & I & C). clear E ND RN running.
  assert (G : forall rest ls, In k rest -> Forall (in_range (length ls)) rest -> snd (lock_each ls r ks rest) = Raise ValueError).
  { induction rest as [|a rest IH]; intros l Ir Rr; [destruct Ir|]. cbn [lock_each].
    destruct (Nat.ltb_spec 1 (count_occ Z.eq_dec ks a)) as [X|X]; [reflexivity|].
    inversion Rr; subst. assert (K := H1). unfold in_range in K.
    replace (Z.leb (Z.of_nat (length l)) a) with false by (symmetry; apply Z.leb_gt; lia). rewrite pos_in by exact H1.
    destruct Ir as [->|Ir]; [lia|]. apply IH; [exact Ir|]. rewrite upd_length. exact H2. }
  apply G; auto.
Qed.
(** ... but the slots before the one asked for twice stay locked, and nobody is told *)
Theorem C89_refused_keeps_refuted : ~ (forall running ls r ks, Forall (in_range (length ls)) ks ->
  snd (lock running ls r ks) = Raise ValueError -> fst (lock running ls r ks) = ls).
Proof.
  intros H. specialize (H (Some true) [free_lock; free_lock] 1 [0; 1; 1]%Z). cbn in H.
  assert (X : [mkLock (Some 1) []; free_lock] = [free_lock; free_lock]) by (apply H; [repeat constructor; unfold in_range; cbn; lia|reflexivity]).
  discriminate.
Qed.
(** The same slot by two indices, one of them counted from the end, is not noticed: the
    request waits for itself *)
Theorem C89_negative_index_refuted : ~ (forall running ls r ks ls' d, running <> Some false ->
  lock running ls r ks = (ls', Ok d) -> (forall j, is_free (lk ls j)) -> fired ls' r d = true).
Proof.
  intros H. specialize (H (Some true) [free_lock; free_lock] 1 [0; -2]%Z _ _ ltac:(discriminate) eq_refl).
  assert (X : fired [mkLock (Some 1) [1]; free_lock] 1 WhenAll = true) by (apply H; intros [|[|[]]]; reflexivity). discriminate.
Qed.
(** An index that is too large releases what others have locked *)
Theorem C89_too_large_refuted : ~ (forall running ls r ks j h, holder (lk ls j) = Some h -> h <> r ->
  holder (lk (fst (lock running ls r ks)) j) = Some h).
Proof. intros H. specialize (H (Some true) [mkLock (Some 5) []] 1 [1%Z] 0 5 eq_refl ltac:(discriminate)). discriminate. Qed.
(** Releasing no slots releases all of them *)
Theorem C89_release_none_refuted : ~ (forall ls j, lk (fst (release ls [])) j = lk ls j).
Proof. intros H. specialize (H [mkLock (Some 5) []] 0). discriminate. Qed.
Example C89_nonvacuous :
  let ls := [free_lock; mkLock (Some 7) [8]; free_lock; free_lock] in
  (Forall (in_range (length ls)) [3; 1]%Z /\ NoDup [3; 1]%Z /\ (forall j, ~ In 9 (waiting (lk ls j)))) /\
  lock (Some true) ls 9 [3; 1]%Z = ([free_lock; mkLock (Some 7) [8; 9]; free_lock; mkLock (Some 9) []], Ok WhenAll) /\
  fired (fst (lock (Some true) ls 9 [3; 1]%Z)) 9 WhenAll = false /\
  release (fst (lock None ls 9 [2; 0]%Z)) [2; 0]%Z = (ls, Ok tt) /\
  lk (fst (release (fst (release (fst (lock None ls 9 [3; 1]%Z)) [1]%Z)) [1]%Z)) 1 = mkLock (Some 9) [] /\
  snd (lock None ls 9 [3; 3]%Z) = Raise ValueError.
Proof.
  cbv zeta. split; [split; [repeat constructor; unfold in_range; cbn; lia|split]|repeat split].
  - repeat constructor; cbn; intuition discriminate.
  - intros [|[|[|[|j]]]]; cbn; intuition try discriminate. destruct j; cbn in *; auto.
Qed.

(** ** C90: sequence methods *)
Lemma ind_loop_ok {A} (il : list A) ks vs : Forall2 (fun k v => item il k = Ok v /\ (k < Z.of_nat (length il))%Z) ks vs ->
  forall acc, ind_loop il ks acc = Ok (match acc ++ vs with [a] => IOne a | l => IMany l end).
Proof.
  induction 1 as [|k v ks vs [I K] F IH]; intros acc; cbn [ind_loop].
  - rewrite app_nil_r. destruct acc as [|a [|b acc]]; reflexivity.
  - replace (Z.leb (Z.of_nat (length il)) k) with false by (symmetry; apply Z.leb_gt; lia). rewrite I. cbn [bind].
    rewrite IH, <- app_assoc. reflexivity.
Qed.
(** With valid indices, which may count from the end, individuals() gives what is
    there, in the order of the indices: by itself if it is one, as a list otherwise *)
Theorem C90_individuals {A} (il : list A) ks : (forall k, In k ks -> (- Z.of_nat (length il) <= k < Z.of_nat (length il))%Z) ->
  exists vs, individuals il ks = Ok (match vs with [a] => IOne a | l => IMany l end) /\ length vs = length ks /\
    forall i k, nth_error ks i = Some k ->
      nth_error vs i = nth_error il (Z.to_nat (if (k <? 0)%Z then Z.of_nat (length il) + k else k)) /\ nth_error vs i <> None.
Proof.
  intros R.
  assert (G : exists vs, Forall2 (fun k v => item il k = Ok v /\ (k < Z.of_nat (length il))%Z) ks vs /\
    forall i k, nth_error ks i = Some k ->
      nth_error vs i = nth_error il (Z.to_nat (if (k <? 0)%Z then Z.of_nat (length il) + k else k)) /\ nth_error vs i <> None).
  { induction ks as [|k ks IH].
    - exists []. split; [constructor|]. intros [|i] k E; discriminate.
    - destruct IH as (vs & F & P); [intros; apply R; right; auto|]. specialize (R k (or_introl eq_refl)).
      set (p := Z.to_nat (if (k <? 0)%Z then Z.of_nat (length il) + k else k)%Z).
      assert (PK : pos (length il) k = Ok p) by (apply pos_spec; unfold p; destruct (Z.ltb_spec k 0); lia).
      assert (PL : p < length il) by (apply pos_spec in PK; apply PK).
      destruct (nth_error il p) as [v|] eqn:E; [|apply nth_error_None in E; lia].
      exists (v :: vs). split.
      + constructor; [|exact F]. split; [|lia]. rewrite (item_pos _ _ _ PK). apply item_nat. exact E.
      + intros [|i] k' N; [|exact (P i k' N)]. cbn in N. injection N as <-. cbn. fold p. rewrite E. split; [reflexivity|discriminate]. }
  destruct G as (vs & F & P). exists vs. split; [unfold individuals; rewrite (ind_loop_ok il ks vs F []); cbn [app]; destruct vs as [|a [|b vs]]; reflexivity|].
  split; [|exact P]. clear - F. induction F; cbn; auto.
Qed.
(** An index beyond the end gives None, whatever else is asked for *)
Theorem C90_beyond {A} (il : list A) ks k : In k ks -> (Z.of_nat (length il) <= k)%Z ->
  (forall k, In k ks -> (- Z.of_nat (length il) <= k)%Z) -> individuals il ks = Ok INone.
Proof.
  intros I K R. unfold individuals. generalize (@nil A). induction ks as [|a ks IH]; intros acc; [destruct I|]. cbn [ind_loop].
  destruct (Z.leb_spec (Z.of_nat (length il)) a) as [L|L]; [reflexivity|].
  destruct I as [->|I]; [lia|]. specialize (R a (or_introl eq_refl)) as Ra.
  assert (exists v, item il a = Ok v) as [v ->].
  { unfold item, pos. destruct (Z.leb_spec 0 a).
    - replace (Z.ltb a (Z.of_nat (length il))) with true by (symmetry; apply Z.ltb_lt; lia). cbn.
      destruct (nth_error il (Z.to_nat a)) eqn:E; [eauto|apply nth_error_None in E; lia].
    - replace (Z.leb (- Z.of_nat (length il)) a) with true by (symmetry; apply Z.leb_le; lia). cbn.
      destruct (nth_error il (Z.to_nat (Z.of_nat (length il) + a))) eqn:E; [eauto|apply nth_error_None in E; lia]. }
  cbn [bind]. apply IH; auto. intros; apply R; right; auto.
Qed.
(** evalTimes has the times of those that were evaluated, in order *)
Theorem C90_evalTimes il : map Some (evalTimes il) = filter (fun t => match t with None => false | _ => true end) (map idt il).
Proof. induction il as [|i il IH]; [reflexivity|]. cbn. destruct (idt i); cbn; rewrite IH; reflexivity. Qed.
(** An individual is in the population if it is a member itself, or if a member has the
    same SSE and values *)
Theorem C90_contains il i : contains il i = true <-> exists x, In x il /\ (fst x = fst i \/ ind_eq (snd x) (snd i) = true).
Proof.
  unfold contains. rewrite existsb_exists. split; intros (x & I & E); exists x; split; auto.
  - apply orb_true_iff in E. destruct E as [E|E]; [left; apply Nat.eqb_eq; exact E|right; exact E].
  - apply orb_true_iff. destruct E as [E|E]; [left; apply Nat.eqb_eq; exact E|right; exact E].
Qed.
(** A member is in the population even if it is not equal to itself, its SSE being NaN;
    a copy of it is not *)
Theorem C90_copy_in_refuted : ~ (forall il n m i j, In (n, i) il -> ind_copy (length (ivalues i)) i = Ok j -> contains il (m, j) = true).
Proof.
  intros H. specialize (H [(0, mkIndiv [fone] (Some fnan) None)] 0 1 (mkIndiv [fone] (Some fnan) None)).
  specialize (H _ (or_introl eq_refl) eq_refl). vm_compute in H. discriminate.
Qed.
Example C90_nonvacuous :
  individuals [10; 20; 30] [2; -3]%Z = Ok (IMany [30; 10]) /\ individuals [10; 20; 30] [-1]%Z = Ok (IOne 30) /\
  individuals [10; 20; 30] [0; 3]%Z = Ok INone /\ individuals [10; 20; 30] [] = Ok (IMany []) /\
  length (evalTimes [mkIndiv [] None (Some fone); mkIndiv [] None None]) = 1 /\
  contains [(0, mkIndiv [fone] (Some fnan) None)] (0, mkIndiv [fone] (Some fnan) None) = true /\
  contains [(0, mkIndiv [fone] (Some fone) None)] (1, mkIndiv [fone] (Some fone) (Some fone)) = true.
Proof. repeat split; vm_compute; reflexivity. Qed.

Print Assumptions C89_lock.
Print Assumptions C89_release.
Print Assumptions C89_lock_release.
Print Assumptions C89_first_come.
Print Assumptions C89_shutting_down.
Print Assumptions C89_twice.
Print Assumptions C89_refused_keeps_refuted.
Print Assumptions C89_negative_index_refuted.
Print Assumptions C89_too_large_refuted.
Print Assumptions C89_release_none_refuted.
Print Assumptions C90_individuals.
Print Assumptions C90_beyond.
Print Assumptions C90_evalTimes.
Print Assumptions C90_contains.
Print Assumptions C90_copy_in_refuted.
