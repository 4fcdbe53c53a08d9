(** Proofs about HistModel.v *)
From Coq Require Import List Bool Arith ZArith Lia Sorted Permutation Reals Lra.
From Flocq Require Import BinarySingleNaN.
From Verif Require Import Flt Py HistModel.
Import ListNotations.
Local Open Scope nat_scope.
#[local] Arguments rnd32 : simpl never.
#[local] Arguments isfin : simpl never.
#[local] Arguments fltb : simpl never.
#[local] Arguments fleb : simpl never.
#[local] Arguments n_draws : simpl never.
#[local] Arguments pairs_all : simpl never.

(** ** sets *)
Lemma mem_spec : forall x s, mem x s = true <-> In x s.
Proof.
  intros x s. unfold mem. rewrite existsb_exists. split.
  - intros (y & I & E). apply Nat.eqb_eq in E. now subst.
  - intros I. exists x. split; auto. apply Nat.eqb_refl.
Qed.
Lemma mem_false : forall x s, mem x s = false <-> ~ In x s.
Proof. intros x s. rewrite <- mem_spec. destruct (mem x s); split; intros H; congruence || (exfalso; auto). Qed.
Lemma in_sadd : forall x y s, In y (sadd x s) <-> y = x \/ In y s.
Proof.
  intros x y s. unfold sadd. destruct (mem x s) eqn:E.
  - apply mem_spec in E. split; auto. intros [->|H]; auto.
  - rewrite in_app_iff. simpl. intuition auto.
Qed.
Lemma in_sdel : forall x y s, In y (sdel x s) <-> In y s /\ y <> x.
Proof. intros x y s. unfold sdel. rewrite filter_In. destruct (Nat.eqb_spec y x); simpl; intuition congruence. Qed.
Lemma nodup_sadd : forall x s, NoDup s -> NoDup (sadd x s).
Proof.
  intros x s H. unfold sadd. destruct (mem x s) eqn:E; auto. apply mem_false in E.
  apply Permutation_NoDup with (l := x :: s); [|constructor; auto]. apply Permutation_cons_append.
Qed.
Lemma nodup_sdel : forall x s, NoDup s -> NoDup (sdel x s).
Proof. intros. now apply NoDup_filter. Qed.

(** ** argmin and pairs *)
Lemma argmin_from_lt : forall D n best i m, best < m -> i + n <= m -> argmin_from D best i n < m.
Proof.
  induction n as [|n IH]; intros best i m Hb Hi; simpl; auto.
  destruct (isnan (D best)); auto. destruct (isnan (D i) || fltb (D i) (D best)); apply IH; lia.
Qed.
Lemma argmin_lt : forall D n, 0 < n -> argmin D n < n.
Proof. intros D n H. apply argmin_from_lt; lia. Qed.

Lemma in_pairs_all : forall K a b, In (a, b) (pairs_all K) <-> In a K /\ In b K /\ a < b.
Proof. intros. unfold pairs_all. rewrite filter_In, in_prod_iff. cbn [fst snd]. rewrite Nat.ltb_lt. tauto. Qed.
Lemma nodup_app : forall (A : Type) (l l' : list A), NoDup l -> NoDup l' -> (forall x, In x l -> ~ In x l') -> NoDup (l ++ l').
Proof.
  induction l as [|x l IH]; intros l' H H' D; simpl; auto. inversion H; subst. constructor.
  - rewrite in_app_iff. intros [K|K]; auto. apply (D x); auto. now left.
  - apply IH; auto. intros y Hy. apply D. now right.
Qed.
Lemma nodup_list_prod : forall (A B : list nat), NoDup A -> NoDup B -> NoDup (list_prod A B).
Proof.
  induction A as [|a A IH]; intros B HA HB; simpl; [constructor|]. inversion HA; subst. apply nodup_app; auto.
  - clear - HB. induction HB as [|b B Hn HB IHB]; simpl; constructor; auto. intros H. apply in_map_iff in H.
    destruct H as (y & [= ->] & H). auto.
  - intros [x y] Hx. apply in_map_iff in Hx. destruct Hx as (y' & [= <- <-] & _). rewrite in_prod_iff. tauto.
Qed.
Lemma pairs_all_nodup : forall K, NoDup K -> NoDup (pairs_all K).
Proof. intros K H. apply NoDup_filter. now apply nodup_list_prod. Qed.

Lemma filter_length_le : forall A (f : A -> bool) l, length (filter f l) <= length l.
Proof. induction l; simpl; auto. destruct (f a); simpl; lia. Qed.
(** number of pairs *)
Lemma pairs_all_length : forall K, NoDup K -> 2 * length (pairs_all K) = length K * (length K - 1).
Proof.
  induction K as [|a K IH]; intros H; [reflexivity|]. inversion H as [|? ? Hn HK]; subst. specialize (IH HK).
  assert (Split : forall L, length (filter (fun p : nat * nat => fst p <? snd p) (list_prod L (a :: K)))
     = length (filter (fun x => x <? a) L) + length (filter (fun p => fst p <? snd p) (list_prod L K))).
  { induction L as [|x L IHL]; [reflexivity|]. cbn [list_prod map]. rewrite !filter_app, !app_length. cbn [filter fst snd].
    destruct (x <? a); cbn [length]; rewrite IHL; lia. }
  unfold pairs_all in *. cbn [list_prod]. rewrite filter_app, app_length. rewrite Split.
  cbn [map filter fst snd]. rewrite Nat.ltb_irrefl.
  assert (One : forall L, length (filter (fun p : nat * nat => fst p <? snd p) (map (fun y => (a, y)) L)) = length (filter (fun y => a <? y) L)).
  { induction L as [|y L IHL]; simpl; auto. destruct (a <? y); simpl; lia. }
  rewrite One.
  assert (Tot : forall L, ~ In a L -> length (filter (fun y => a <? y) L) + length (filter (fun x => x <? a) L) = length L).
  { induction L as [|y L IHL]; simpl; intros Hy; auto. specialize (IHL (fun K => Hy (or_intror K))).
    destruct (Nat.ltb_spec a y), (Nat.ltb_spec y a); simpl; try lia; exfalso; apply Hy; left; lia. }
  specialize (Tot K Hn). cbn [length] in *. nia.
Qed.

Lemma drawn_in : forall K draw j, K <> [] -> In (drawn K draw j) K.
Proof.
  intros K draw j H. unfold drawn. apply nth_In. apply Nat.mod_upper_bound. destruct K; [congruence|discriminate].
Qed.
Lemma in_firstn : forall A n (l : list A) x, In x (firstn n l) -> In x l.
Proof. induction n; intros [|a l] x H; simpl in *; auto; try tauto. destruct H; auto. Qed.
Lemma pairs_sampled_spec : forall K draw fuel c N L, pairs_sampled K draw fuel c N = Some L -> K <> [] ->
  length L = N /\ (forall a b, In (a, b) L -> In a K /\ In b K /\ a < b).
Proof.
  intros K draw. induction fuel as [|fuel IH]; intros c N L E NE; cbn [pairs_sampled] in E;
  set (B := map _ (seq 0 (n_draws (length K) N))) in E; set (F := filter _ B) in E;
  assert (HB : forall a b, In (a, b) (firstn N F) -> In a K /\ In b K /\ a < b) by
    (intros a b I; apply in_firstn in I; unfold F in I; apply filter_In in I; destruct I as [I Lt]; cbn [fst snd] in Lt;
     apply Nat.ltb_lt in Lt; unfold B in I; apply in_map_iff in I; destruct I as (j & [= <- <-] & _); auto using drawn_in);
  destruct (Nat.ltb_spec (length (firstn N F)) N) as [Lt|Ge]; try discriminate.
  - injection E as <-. split; auto. assert (K2 := firstn_le_length N F). lia.
  - destruct (pairs_sampled K draw fuel (S c) (N - length (firstn N F))) as [R|] eqn:E2; [|discriminate].
    injection E as <-. destruct (IH _ _ _ E2 NE) as [L1 L2]. rewrite app_length. split; [lia|].
    intros a b I. apply in_app_iff in I. destruct I; auto.
  - injection E as <-. split; auto. assert (K2 := firstn_le_length N F). lia.
Qed.

Lemma cpf_call_spec : forall Np c o, NoDup (cK c) -> 0 < Np ->
  match cpf_call Np c o with
  | Some (Ok r) => In r (cK c) /\ (2 <= length (cK c) -> exists r', In r' (cK c) /\ r < r')
  | Some (Raise e) => e = ValueError /\ cK c = []
  | None => 2 <= length (cK c) /\ 2 * Np <= length (cK c) * (length (cK c) - 1)
  end.
Proof.
  intros Np c o ND HN. unfold cpf_call. destruct (Nat.eqb_spec (length (cK c)) 1) as [E1|N1].
  - destruct (cK c) as [|x [|y l]]; simpl in *; try discriminate. split; auto. lia.
  - assert (Pick : forall L, L <> [] -> (forall a b, In (a, b) L -> In a (cK c) /\ In b (cK c) /\ a < b) ->
      In (fst (nth (argmin (dist o L) (length L)) L (0, 0))) (cK c) /\
      (2 <= length (cK c) -> exists r', In r' (cK c) /\ fst (nth (argmin (dist o L) (length L)) L (0, 0)) < r')).
    { intros L NL HL. assert (I := nth_In L (0, 0) (argmin_lt (dist o L) (length L) ltac:(destruct L; [congruence|simpl; lia]))).
      destruct (nth _ L (0, 0)) as [a b]. apply HL in I. simpl. split; [tauto|]. intros _. exists b. tauto. }
    destruct (Nat.ltb_spec (length (cK c) * (length (cK c) - 1)) (2 * Np)) as [Lt|Ge].
    + destruct (pairs_all (cK c)) as [|p L] eqn:E.
      * split; auto. assert (P := pairs_all_length _ ND). rewrite E in P. cbn [length] in P.
        destruct (cK c) as [|x [|y l]]; auto; cbn [length] in *; [lia|nia].
      * rewrite <- E. apply Pick; [rewrite E; discriminate|]. intros a b. apply in_pairs_all.
    + destruct (pairs_sampled (cK c) (draws o) (calls o) 0 Np) as [L|] eqn:E.
      * assert (NE : cK c <> []) by (intros H; rewrite H in Ge; simpl in Ge; lia).
        destruct (pairs_sampled_spec _ _ _ _ _ _ E NE) as [L1 L2]. destruct L as [|p L]; [simpl in L1; lia|].
        apply Pick; [discriminate|auto].
      * split; auto. destruct (cK c) as [|x [|y l]]; simpl in *; lia.
Qed.

(** ** row allocation *)
Lemma in_ins : forall x y l, In y (ins x l) <-> y = x \/ In y l.
Proof. induction l as [|z l IH]; simpl; [intuition|]. destruct (x <=? z); simpl; rewrite ?IH; intuition. Qed.
Lemma in_nsort : forall y l, In y (nsort l) <-> In y l.
Proof. induction l as [|x l IH]; simpl; [tauto|]. rewrite in_ins, IH. intuition. Qed.
Lemma ins_sorted : forall x l, StronglySorted lt l -> ~ In x l -> StronglySorted lt (ins x l).
Proof.
  induction l as [|y l IH]; intros H N; simpl; [repeat constructor|]. inversion H; subst.
  destruct (Nat.leb_spec x y).
  - constructor; auto. constructor; [|rewrite Forall_forall in *; intros z Hz; specialize (H3 z Hz); lia].
    assert (x <> y) by (intros ->; apply N; now left). lia.
  - constructor; [apply IH; auto; intros K; apply N; now right|]. rewrite Forall_forall in *. intros z Hz. apply in_ins in Hz.
    destruct Hz as [->|Hz]; auto.
Qed.
Lemma nsort_sorted : forall l, NoDup l -> StronglySorted lt (nsort l).
Proof. induction 1 as [|x l N H IH]; simpl; [constructor|]. apply ins_sorted; auto. now rewrite in_nsort. Qed.
Lemma sorted_ext : forall l l', StronglySorted lt l -> StronglySorted lt l' -> (forall x, In x l <-> In x l') -> l = l'.
Proof.
  induction l as [|a l IH]; intros [|b l'] H H' E; auto.
  - exfalso. apply (proj2 (E b)). now left.
  - exfalso. apply (proj1 (E a)). now left.
  - inversion H as [|? ? Hs Hf]; inversion H' as [|? ? Hs' Hf']; subst. rewrite Forall_forall in *.
    assert (a = b).
    { destruct (proj1 (E a) (or_introl eq_refl)) as [?|A]; auto. destruct (proj2 (E b) (or_introl eq_refl)) as [?|B]; auto.
      specialize (Hf _ B). specialize (Hf' _ A). lia. }
    subst b. f_equal. apply IH; auto. intros x. specialize (E x). simpl in E. split; intros I.
    + destruct (proj1 E (or_intror I)) as [->|?]; auto. exfalso. specialize (Hf _ I). lia.
    + destruct (proj2 E (or_intror I)) as [->|?]; auto. exfalso. specialize (Hf' _ I). lia.
Qed.
Lemma seq_sorted : forall n a, StronglySorted lt (seq a n).
Proof. induction n; intros a; simpl; constructor; auto. rewrite Forall_forall. intros x H. apply in_seq in H. lia. Qed.
Lemma app_sorted : forall l l', StronglySorted lt l -> StronglySorted lt l' -> (forall x y, In x l -> In y l' -> x < y) -> StronglySorted lt (l ++ l').
Proof.
  induction l as [|a l IH]; intros l' H H' C; simpl; auto. inversion H; subst. constructor.
  - apply IH; auto. intros x y Hx. apply C. now right.
  - rewrite Forall_forall in *. intros x Hx. apply in_app_iff in Hx. destruct Hx; auto. apply C; auto. now left.
Qed.

Lemma loop_consec : forall N m a, kkr_loop N (seq a m) = None.
Proof.
  intros N. induction m as [|m IH]; intros a; [reflexivity|]. destruct m as [|[|m]]; try reflexivity.
  specialize (IH (S a)). cbn [seq] in *.
  change (kkr_loop N (a :: S a :: S (S a) :: seq (S (S (S a))) m)) with
    (if S a =? 0 then kkr_loop N (S a :: S (S a) :: seq (S (S (S a))) m) else if S a =? N - 1 then None
     else if negb (a =? S a - 1) then Some (S a - 1) else if negb (S (S a) =? S a + 1) then Some (S a + 1)
     else kkr_loop N (S a :: S (S a) :: seq (S (S (S a))) m)).
  change (S a =? 0) with false. cbv iota. destruct (S a =? N - 1); auto. replace (S a - 1) with a by lia. rewrite Nat.eqb_refl.
  replace (S a + 1) with (S (S a)) by lia. rewrite Nat.eqb_refl. cbn [negb]. exact IH.
Qed.
Lemma loop_gap : forall N m a x rest, 2 <= m -> x <> a + m -> a + m <= N - 1 -> kkr_loop N (seq a m ++ x :: rest) = Some (a + m).
Proof.
  intros N. induction m as [|m IH]; intros a x rest Hm Hx HN; [lia|]. destruct m as [|m]; [lia|].
  cbn [seq app]. set (c := match m with O => x | _ => S (S a) end).
  assert (E : kkr_loop N (a :: S a :: seq (S (S a)) m ++ x :: rest) =
    if S a =? N - 1 then None else if negb (c =? S (S a)) then Some (S (S a)) else kkr_loop N (S a :: seq (S (S a)) m ++ x :: rest)).
  { destruct m as [|m]; cbn [seq app]; unfold c; cbn [kkr_loop]; change (S a =? 0) with false; cbv iota; destruct (S a =? N - 1); auto;
    replace (S a - 1) with a by lia; rewrite Nat.eqb_refl; replace (S a + 1) with (S (S a)) by lia; reflexivity. }
  rewrite E. destruct (Nat.eqb_spec (S a) (N - 1)); [lia|]. destruct m as [|m]; unfold c.
  - destruct (Nat.eqb_spec x (S (S a))); [lia|]. cbn [negb]. f_equal. lia.
  - rewrite Nat.eqb_refl. cbn [negb]. change (S a :: seq (S (S a)) (S m) ++ x :: rest) with (seq (S a) (S (S m)) ++ x :: rest).
    rewrite IH by lia. f_equal. lia.
Qed.
Lemma last_seq : forall n a, last (seq a (S n)) 0 = a + n.
Proof.
  induction n as [|n IH]; intros a; [simpl; lia|]. change (seq a (S (S n))) with (a :: seq (S a) (S n)).
  change (last (a :: seq (S a) (S n)) 0) with (last (seq (S a) (S n)) 0). rewrite IH. lia.
Qed.
(** where kkr puts the new row *)
Definition new_row (N : nat) (K : list nat) : nat :=
  match kkr_loop N (nsort K) with
  | Some r => r
  | None => if 0 <? hd 0 (nsort K) then hd 0 (nsort K) - 1 else Nat.min N (last (nsort K) 0 + 1)
  end.
Lemma new_row_end : forall N K, NoDup K -> (forall r, In r K <-> r < N) -> 0 < N -> new_row N K = N.
Proof.
  intros N K ND H HN. unfold new_row.
  assert (E : nsort K = seq 0 N).
  { apply sorted_ext; [now apply nsort_sorted|apply seq_sorted|]. intros x. rewrite in_nsort, in_seq, H. lia. }
  rewrite E, loop_consec. destruct N as [|n]; [lia|]. cbn [seq hd Nat.ltb Nat.leb].
  change (0 :: seq 1 n) with (seq 0 (S n)). rewrite last_seq. lia.
Qed.
Lemma new_row_hole : forall N K g, NoDup K -> (forall r, In r K <-> r < N /\ r <> g) -> g < N -> N = 2 \/ 4 <= N -> new_row N K = g.
Proof.
  intros N K g ND H Hg HN. unfold new_row.
  assert (E : nsort K = seq 0 g ++ seq (S g) (N - 1 - g)).
  { apply sorted_ext; [now apply nsort_sorted| |].
    - apply app_sorted; try apply seq_sorted. intros x y Hx Hy. apply in_seq in Hx. apply in_seq in Hy. lia.
    - intros x. rewrite in_nsort, in_app_iff, !in_seq, H. lia. }
  rewrite E. destruct (Nat.eq_dec g 0) as [->|G0].
  - cbn [seq app]. rewrite loop_consec. destruct (N - 1 - 0) as [|n] eqn:EN; [lia|]. reflexivity.
  - destruct (Nat.eq_dec g (N - 1)) as [->|G1].
    + replace (N - 1 - (N - 1)) with 0 by lia. cbn [seq]. rewrite app_nil_r, loop_consec.
      destruct (N - 1) as [|n] eqn:EN; [lia|]. cbn [seq hd Nat.ltb Nat.leb]. change (0 :: seq 1 n) with (seq 0 (S n)).
      rewrite last_seq. lia.
    + destruct (N - 1 - g) as [|n] eqn:EN; [lia|]. destruct (Nat.eq_dec g 1) as [->|G2].
      * destruct n as [|n]; [lia|]. cbn [seq app kkr_loop]. change (2 =? 0) with false. cbv iota. destruct (Nat.eqb_spec 2 (N - 1)); [lia|]. reflexivity.
      * cbn [seq]. rewrite loop_gap by lia. reflexivity.
Qed.

(** the binary search *)
Lemma bsearch_spec : forall a v n, (forall i j, i <= j -> j < n -> fltb (a j) v = true -> fltb (a i) v = true) ->
  forall fuel lo hi, hi - lo <= fuel -> lo <= hi -> hi <= n ->
  (forall j, j < lo -> fltb (a j) v = true) -> (forall j, hi <= j -> j < n -> fltb (a j) v = false) ->
  exists k, bsearch a v fuel lo hi = Some k /\ k <= n /\
  (forall j, j < k -> fltb (a j) v = true) /\ (forall j, k <= j -> j < n -> fltb (a j) v = false).
Proof.
  intros a v n Mono. induction fuel as [|fuel IH]; intros lo hi Hf Hl Hh HL HH; cbn [bsearch].
  - destruct (Nat.ltb_spec lo hi); [lia|]. exists lo. assert (lo = hi) by lia. subst. repeat split; auto.
  - destruct (Nat.ltb_spec lo hi) as [Lt|Ge].
    + assert (M : lo <= lo + (hi - lo) / 2 < hi).
      { assert ((hi - lo) / 2 < hi - lo) by (apply Nat.div_lt; lia). lia. }
      destruct (fltb (a (lo + (hi - lo) / 2)) v) eqn:E.
      * apply IH; try lia; auto. intros j Hj. eapply (Mono j (lo + (hi - lo) / 2)); auto; lia.
      * apply IH; try lia; auto. intros j Hj Hn. destruct (fltb (a j) v) eqn:Ej; auto.
        rewrite (Mono (lo + (hi - lo) / 2) j) in E; auto; try lia. 
    + exists lo. assert (lo = hi) by lia. subst. repeat split; auto.
Qed.
(** ** lists *)
Lemma insert_at_app : forall A k (x : A) l, k <= length l -> insert_at k x l = firstn k l ++ x :: skipn k l.
Proof. induction k; intros x [|y l] H; simpl in *; auto; try lia. f_equal. apply IHk. lia. Qed.
Lemma insert_at_perm : forall A k (x : A) l, k <= length l -> Permutation (insert_at k x l) (x :: l).
Proof. intros. rewrite insert_at_app by auto. rewrite <- (firstn_skipn k l) at 3. symmetry. apply Permutation_middle. Qed.
Lemma remove1_perm : forall x l, In x l -> Permutation l (x :: remove1 x l).
Proof.
  induction l as [|y l IH]; intros H; [destruct H|]. cbn [remove1]. destruct (Nat.eqb_spec y x) as [->|N]; [reflexivity|].
  destruct H as [H|H]; [congruence|]. rewrite (IH H) at 1. apply perm_swap.
Qed.
Lemma remove1_sorted : forall (R : nat -> nat -> Prop) x l, StronglySorted R l -> StronglySorted R (remove1 x l).
Proof.
  induction 1 as [|y l H IH F]; cbn [remove1]; [constructor|]. destruct (y =? x); auto. constructor; auto.
  rewrite Forall_forall in *. intros z Hz. apply F. clear - Hz. induction l as [|a l IHl]; simpl in *; auto. destruct (a =? x); simpl in *; tauto.
Qed.
Lemma sorted_nth : forall (R : nat -> nat -> Prop) l i j, StronglySorted R l -> i < j -> j < length l -> R (nth i l 0) (nth j l 0).
Proof.
  intros R l i j H. revert i j. induction H as [|a l H IH F]; intros i j Hij Hj; simpl in Hj; [lia|].
  destruct j as [|j]; [lia|]. destruct i as [|i]; cbn [nth].
  - rewrite Forall_forall in F. apply F. apply nth_In. lia.
  - apply IH; lia.
Qed.
Lemma sorted_of_nth : forall (R : nat -> nat -> Prop) l, (forall i j, i < j -> j < length l -> R (nth i l 0) (nth j l 0)) -> StronglySorted R l.
Proof.
  intros R. induction l as [|a l IH]; intros H; constructor.
  - apply IH. intros i j Hij Hj. apply (H (S i) (S j)); simpl; lia.
  - rewrite Forall_forall. intros x Hx. apply In_nth with (d := 0) in Hx. destruct Hx as (n & Hn & <-). apply (H 0 (S n)); simpl; lia.
Qed.
Lemma sorted_insert : forall (R : nat -> nat -> Prop) x l k, StronglySorted R l -> k <= length l ->
  (forall j, j < k -> R (nth j l 0) x) -> (forall j, k <= j -> j < length l -> R x (nth j l 0)) -> StronglySorted R (insert_at k x l).
Proof.
  intros R x l k H. revert k. induction H as [|a l H IH F]; intros k Hk H1 H2; simpl in Hk.
  - destruct k; [|lia]. repeat constructor.
  - destruct k as [|k]; cbn [insert_at].
    + constructor; [constructor; auto|]. rewrite Forall_forall. intros z Hz. apply In_nth with (d := 0) in Hz. destruct Hz as (n & Hn & <-).
      apply H2; [lia|auto].
    + constructor; [apply IH; try lia|].
      * intros j Hj. apply (H1 (S j)). lia.
      * intros j Hj Hn. apply (H2 (S j)); simpl; lia.
      * rewrite Forall_forall in *. intros z Hz. apply (Permutation_in _ (insert_at_perm _ k x l ltac:(lia))) in Hz.
        destruct Hz as [<-|Hz]; auto. apply (H1 0). lia.
Qed.
Lemma sorted_weaken : forall (R R' : nat -> nat -> Prop) l, StronglySorted R l -> (forall x y, In x l -> In y l -> R x y -> R' x y) -> StronglySorted R' l.
Proof.
  induction 1 as [|a l H IH F]; intros W; constructor.
  - apply IH. intros x y Hx Hy. apply W; now right.
  - rewrite Forall_forall in *. intros x Hx. apply W; auto; [now left|now right].
Qed.

(** ** dict kr *)
Lemma zget_in : forall d k r, zget d k = Some r -> In (k, r) d.
Proof.
  intros d k r H. unfold zget in H. destruct (find _ d) as [[k' r']|] eqn:E; [|discriminate]. apply find_some in E. destruct E as [I E].
  cbn [fst snd] in *. apply Z.eqb_eq in E. injection H as <-. now subst.
Qed.
Lemma in_zdel : forall d k k' r, In (k', r) (zdel d k) <-> In (k', r) d /\ k' <> k.
Proof. intros. unfold zdel. rewrite filter_In. cbn [fst]. destruct (Z.eqb_spec k' k); simpl; intuition congruence. Qed.
Lemma in_zset : forall d k r k' r', In (k', r') (zset d k r) <-> (k' = k /\ r' = r) \/ (In (k', r') d /\ k' <> k).
Proof. intros. unfold zset. rewrite in_app_iff, in_zdel. simpl. split; [intros [H|[H|[]]]; [auto|injection H as -> ->; auto]|intros [[-> ->]|H]; auto]. Qed.

(** ** single precision *)
Lemma nan_of_fin : forall x, isfin x = true -> isnan x = false.
Proof. intros [| | |]; simpl; auto; discriminate. Qed.
Definition fits (x : f64) : Prop := isfin (rnd32 x) = true.
Lemma fits_fin : forall x, fits x -> isnan x = false.
Proof. intros x H. rewrite <- rnd32_nan. now apply nan_of_fin. Qed.
Definition single (x : f64) : Prop := isfin x = true /\ key (rnd32 x) = key x.
Lemma single_rnd : forall x, fits x -> single (rnd32 x).
Proof. intros x H. split; auto. apply rnd32_idem_key. Qed.
Lemma below_round : forall x v, single x -> isfin v = true -> fltb x v = true -> fleb x (rnd32 v) = true.
Proof.
  intros x v [Fx Kx] Fv H. apply fltb_fleb in H. apply rnd32_mono in H. apply fleb_spec in H. destruct H as (N1 & N2 & Hk).
  apply fleb_spec. repeat split; auto. now apply nan_of_fin. rewrite <- Kx. exact Hk.
Qed.
Lemma above_round : forall x v, single x -> isfin v = true -> fltb x v = false -> fleb (rnd32 v) x = true.
Proof.
  intros x v [Fx Kx] Fv H. assert (L : fleb v x = true).
  { rewrite fltb_negb in H by now apply nan_of_fin. now apply negb_false_iff in H. }
  apply rnd32_mono in L. apply fleb_spec in L. destruct L as (N1 & N2 & Hk).
  apply fleb_spec. repeat split; auto. now apply nan_of_fin. rewrite <- Kx. exact Hk.
Qed.

(** ** the invariant *)
Definition le_sse (h : hist) (r s : nat) : Prop := fleb (h_sse h r) (h_sse h s) = true.
Record hinv (h : hist) : Prop := mkInv {
  i_cap : nmax h = 2 \/ 4 <= nmax h;
  i_nodup : NoDup (K h);
  i_rows : forall r, In r (K h) <-> r < length (K h);
  i_len : length (K h) <= nmax h;
  i_sorted : StronglySorted (le_sse h) (K h);
  i_data : forall r, In r (K h) -> length (X h r) = S (Nd h) /\ forallb isfin (X h r) = true /\ single (h_sse h r);
  i_cover : forall r, In r (K h) <-> In r (Kp h) \/ In r (cK (cp h));
  i_disj : forall r, In r (Kp h) -> ~ In r (cK (cp h));
  i_never : forall r, In r (Kn h) <-> In r (cKn (cp h));
  i_kn : forall r, In r (Kn h) -> In r (cK (cp h));
  i_cnd : NoDup (cK (cp h));
  i_kr : forall k r, In (k, r) (krd h) -> In r (Kp h);
  i_inj : forall k k' r, In (k, r) (krd h) -> In (k', r) (krd h) -> k = k'
}.
Lemma inv_lock : forall h, hinv h -> hinv (lockit h).
Proof. intros h [? ? ? ? ? ? ? ? ? ? ? ? ?]. now constructor. Qed.
Lemma inv_empty : forall nd nm t x l, nm = 2 \/ 4 <= nm -> hinv (mkHist nd nm t x [] [] [] [] cpf_clear l).
Proof.
  intros nd nm t x l H. constructor; cbn [nmax K Kp Kn cp cK cKn cpf_clear krd X Nd length]; try (simpl; tauto).
  - constructor.
  - intros r. simpl. lia.
  - lia.
  - constructor.
  - constructor.
Qed.
Lemma inv_init : forall nd nm, nm = 0 \/ nm = 2 \/ 4 <= nm -> hinv (h_init nd nm).
Proof.
  intros nd nm H. unfold h_init. apply inv_empty. cbn [nmax]. destruct (Nat.eqb_spec nm 0); [right|lia]. apply Nat.leb_le. reflexivity.
Qed.

(** an individual that fits the array *)
Definition good (h : hist) (i : ind) : Prop := length (ivals i) = Nd h /\ isfin (iSSE i) = true /\ fits (iSSE i) /\ Forall fits (ivals i).
Definition record_of (i : ind) : list f64 := map rnd32 (iSSE i :: ivals i).
Lemma row_good : forall h i, good h i -> row_of (Nd h) i = Ok (record_of i).
Proof.
  intros h i (L & _). unfold row_of, record_of. rewrite map_length. cbn [length]. now rewrite L, Nat.eqb_refl.
Qed.
Lemma record_fin : forall h i, good h i -> forallb isfin (record_of i) = true.
Proof.
  intros h i (_ & _ & F & V). unfold record_of. apply forallb_forall. intros x Hx. apply in_map_iff in Hx. destruct Hx as (y & <- & Hy).
  destruct Hy as [<-|Hy]; auto. rewrite Forall_forall in V. now apply V.
Qed.
Lemma good_pack : forall h i, good h i -> pack_overflow i = false.
Proof. intros h i (_ & _ & F & _). unfold pack_overflow. rewrite F. apply andb_false_r. Qed.

Section WithHash.
Variable hash : ind -> Z.

(** writing a record at a free row keeps the invariant.  [base] is the history
    without the record that made room *)
Definition pre_add (h : hist) (r : nat) : Prop :=
  (nmax h = 2 \/ 4 <= nmax h) /\ NoDup (K h) /\ (forall x, In x (K h) <-> x < S (length (K h)) /\ x <> r) /\ r <= length (K h) /\
  S (length (K h)) <= nmax h /\
  StronglySorted (le_sse h) (K h) /\
  (forall r, In r (K h) -> length (X h r) = S (Nd h) /\ forallb isfin (X h r) = true /\ single (h_sse h r)) /\
  (forall r, In r (K h) <-> In r (Kp h) \/ In r (cK (cp h))) /\
  (forall r, In r (Kp h) -> ~ In r (cK (cp h))) /\
  (forall r, In r (Kn h) <-> In r (cKn (cp h))) /\
  (forall r, In r (Kn h) -> In r (cK (cp h))) /\
  NoDup (cK (cp h)) /\
  (forall k r, In (k, r) (krd h) -> In r (Kp h)) /\
  (forall k k' r, In (k, r) (krd h) -> In (k', r) (krd h) -> k = k').

Lemma kkr_ok : forall h i N r, pre_add h r -> isfin (iSSE i) = true -> K h <> [] -> new_row N (K h) = r ->
  exists k, kkr h (iSSE i) N = Ok (k, r) /\ k <= length (K h) /\
  (forall j, j < k -> fltb (h_sse h (nth j (K h) 0)) (iSSE i) = true) /\
  (forall j, k <= j -> j < length (K h) -> fltb (h_sse h (nth j (K h) 0)) (iSSE i) = false).
Proof.
  intros h i N r P F NE Hr. destruct P as (Pc & Pnd & Prow & Prl & Plen & Ps & Pd & _).
  destruct (bsearch_spec (fun j => hd fnan (X h (nth j (K h) 0))) (iSSE i) (length (K h))) with (fuel := length (K h)) (lo := 0) (hi := length (K h))
    as (k & E & Hk & H1 & H2); try lia.
  - intros a b Hab Hb H. destruct (Nat.eq_dec a b) as [->|Nab]; auto.
    assert (S := sorted_nth _ _ a b Ps ltac:(lia) Hb). unfold le_sse, h_sse in S. eapply fleb_fltb_trans; eauto.
  - exists k. split; [|auto]. unfold kkr. rewrite E. unfold new_row in Hr. destruct (K h) as [|x l] eqn:EK; [congruence|]. rewrite <- EK in *.
    destruct (kkr_loop N (nsort (K h))); [congruence|]. destruct (0 <? hd 0 (nsort (K h))); congruence.
Qed.

(** the history after writing *)
Lemma write_ok : forall h i never k r, pre_add h r -> good h i -> k <= length (K h) ->
  (forall j, j < k -> fltb (h_sse h (nth j (K h) 0)) (iSSE i) = true) ->
  (forall j, k <= j -> j < length (K h) -> fltb (h_sse h (nth j (K h) 0)) (iSSE i) = false) ->
  exists h', write_record hash h i never k r = (h', None) /\ hinv h' /\
    Nd h' = Nd h /\ nmax h' = nmax h /\ total h' = S (total h) /\ locked h' = locked h /\
    K h' = insert_at k r (K h) /\ X h' r = record_of i /\ (forall j, j <> r -> X h' j = X h j) /\
    (forall x, In x (Kp h') <-> In x (Kp h) \/ (never = false /\ x = r)) /\
    (forall x, In x (Kn h') <-> In x (Kn h) \/ (never = true /\ x = r)) /\
    (forall q s, In (q, s) (krd h') <-> if never then In (q, s) (krd h) else (q = hash i /\ s = r) \/ (In (q, s) (krd h) /\ q <> hash i)).
Proof.
  intros h i never k r P G Hk H1 H2. destruct P as (Pc & Pnd & Prow & Prl & Plen & Ps & Pd & Pcov & Pdis & Pnev & Pkn & Pcnd & Pkr & Pinj).
  unfold write_record. destruct (Nat.ltb_spec r (nmax h)); [|lia]. cbn [negb]. rewrite (row_good h i G).
  assert (NK : ~ In r (K h)) by (rewrite Prow; tauto).
  assert (NP : ~ In r (Kp h)) by (intros Hx; apply NK; apply Pcov; auto).
  assert (NC : ~ In r (cK (cp h))) by (intros Hx; apply NK; apply Pcov; auto).
  assert (NN : ~ In r (Kn h)) by (intros Hx; apply NC; auto).
  set (X' := fun j => if j =? r then record_of i else X h j).
  assert (Xr : X' r = record_of i) by (unfold X'; now rewrite Nat.eqb_refl).
  assert (Xo : forall j, j <> r -> X' j = X h j) by (intros j Hj; unfold X'; destruct (Nat.eqb_spec j r); congruence).
  assert (Perm := insert_at_perm nat k r (K h) Hk).
  assert (InK : forall x, In x (insert_at k r (K h)) <-> x = r \/ In x (K h)).
  { intros x. split; intros Hx.
    - apply (Permutation_in _ Perm) in Hx. destruct Hx; auto.
    - apply (Permutation_in _ (Permutation_sym Perm)). destruct Hx; [left|right]; auto. }
  assert (Len : length (insert_at k r (K h)) = S (length (K h))) by (rewrite (Permutation_length Perm); reflexivity).
  assert (Clear : clear_row (cp h) r = cp h) by (unfold clear_row; apply mem_false in NC; now rewrite NC).
  assert (Srt : forall h', X h' = X' -> StronglySorted (le_sse h') (insert_at k r (K h))).
  { intros h' HX. apply sorted_insert; auto.
    - eapply sorted_weaken; [exact Ps|]. intros x y Hx Hy Hle. unfold le_sse, h_sse in *. rewrite HX.
      rewrite (Xo x) by congruence. rewrite (Xo y) by congruence. exact Hle.
    - intros j Hj. assert (I : In (nth j (K h) 0) (K h)) by (apply nth_In; lia). unfold le_sse, h_sse. rewrite HX, Xr, Xo by congruence.
      apply below_round; [apply Pd; auto|apply G|apply H1; auto].
    - intros j Hj Hn. assert (I : In (nth j (K h) 0) (K h)) by (apply nth_In; lia). unfold le_sse, h_sse. rewrite HX, Xr, Xo by congruence.
      apply above_round; [apply Pd; auto|apply G|apply H2; auto]. }
  assert (Dat : forall x, In x (insert_at k r (K h)) -> length (X' x) = S (Nd h) /\ forallb isfin (X' x) = true /\ single (hd fnan (X' x))).
  { intros x Hx. apply InK in Hx. destruct (Nat.eq_dec x r) as [->|N].
    - rewrite Xr. split; [unfold record_of; rewrite map_length; simpl; f_equal; apply G|]. split; [eapply record_fin; eauto|].
      apply single_rnd. apply G.
    - rewrite Xo by auto. destruct Hx; [congruence|]. now apply Pd. }
  assert (Rows : forall x, In x (insert_at k r (K h)) <-> x < length (insert_at k r (K h))).
  { intros x. rewrite InK, Len, Prow. destruct (Nat.eq_dec x r); [subst|]; intuition lia. }
  assert (ND : NoDup (insert_at k r (K h))).
  { apply (Permutation_NoDup (Permutation_sym Perm)). constructor; auto. }
  destruct never.
  - unfold set_row. rewrite (record_fin h i G). eexists. split; [reflexivity|].
    cbn [Nd nmax total locked K X Kp Kn krd cp]. split; [|].
    + constructor; cbn [Nd nmax total locked K X Kp Kn krd cp cK cKn]; auto.
      * rewrite Len. lia.
      * intros x. rewrite InK, in_sadd, Pcov. intuition.
      * intros x Hx. rewrite in_sadd. intros [->|Hc]; [auto|]. eapply Pdis; eauto.
      * intros x. rewrite !in_sadd, Pnev. tauto.
      * intros x. rewrite !in_sadd. intros [->|Hx]; auto.
      * now apply nodup_sadd.
    + repeat (split; [solve [auto]|]). split; [intros x; intuition congruence|]. split; [intros x; rewrite in_sadd; intuition|]. tauto.
  - rewrite (good_pack h i G), Clear. eexists. split; [reflexivity|].
    cbn [Nd nmax total locked K X Kp Kn krd cp]. split; [|].
    + constructor; cbn [Nd nmax total locked K X Kp Kn krd cp cK cKn]; auto.
      * rewrite Len. lia.
      * intros x. rewrite InK, in_sadd, Pcov. intuition.
      * intros x. rewrite in_sadd. intros [->|Hx]; auto.
      * intros q s. rewrite in_zset, in_sadd. intros [[_ ->]|[Hx _]]; auto. right. eapply Pkr; eauto.
      * intros q q' s Hq Hq'. rewrite in_zset in Hq, Hq'. destruct Hq as [[-> ->]|[Hq _]], Hq' as [[-> E]|[Hq' _]]; auto.
        -- exfalso. apply NP. eapply Pkr; eauto.
        -- subst. exfalso. apply NP. eapply Pkr; eauto.
        -- eapply Pinj; eauto.
    + repeat (split; [solve [auto]|]). split; [intros x; rewrite in_sadd; intuition|]. split; [intros x; intuition congruence|]. intros q s. apply in_zset.
Qed.

(** what add does to a history in a good state *)
Definition added (h h' : hist) (i : ind) (never : bool) (r : nat) (gone : list nat) : Prop :=
  hinv h' /\ Nd h' = Nd h /\ nmax h' = nmax h /\ total h' = S (total h) /\ locked h' = locked h /\
  r < nmax h /\ (forall x, In x (K h') <-> x = r \/ (In x (K h) /\ ~ In x gone)) /\
  (forall x, In x (K h) -> ~ In x gone -> x <> r) /\
  X h' r = record_of i /\ (forall j, j <> r -> X h' j = X h j) /\
  (forall x, In x (Kp h') <-> In x (Kp h) \/ (never = false /\ x = r)) /\
  (forall x, In x (Kn h') <-> (In x (Kn h) /\ ~ In x gone) \/ (never = true /\ x = r)) /\
  (forall q s, In (q, s) (krd h') <-> if never then In (q, s) (krd h) else (q = hash i /\ s = r) \/ (In (q, s) (krd h) /\ q <> hash i)).

Lemma in_remove1 : forall x g l, NoDup l -> In g l -> (In x (remove1 g l) <-> In x l /\ x <> g).
Proof.
  intros x g l ND Hg. assert (P := remove1_perm g l Hg). assert (ND' := Permutation_NoDup P ND). inversion ND'; subst.
  split.
  - intros Hx. split; [apply (Permutation_in _ (Permutation_sym P)); now right|]. congruence.
  - intros [Hx N]. apply (Permutation_in _ P) in Hx. destruct Hx; congruence.
Qed.

Lemma add_spec : forall h i never o, hinv h -> good h i -> locked h = false ->
  (length (K h) < nmax h -> exists h', h_add hash h (iSSE i) i never o = (h', Ret (Some (length (K h)))) /\ added h h' i never (length (K h)) []) /\
  (length (K h) = nmax h ->
    match cpf_call Np_max (cp h) o with
    | Some (Ok g) => In g (cK (cp h)) /\ exists h', h_add hash h (iSSE i) i never o = (h', Ret (Some g)) /\ added h h' i never g [g]
    | Some (Raise e) => e = ValueError /\ cK (cp h) = [] /\ h_add hash h (iSSE i) i never o = (lockit h, Exc ValueError)
    | None => 2 <= length (cK (cp h)) /\ h_add hash h (iSSE i) i never o = (lockit h, Blocked)
    end).
Proof.
  intros h i never o I G U. destruct I as [Ic Ind Ir Il Is Id Icov Idis Inev Ikn Icnd Ikr Iinj].
  assert (Gf : isfin (iSSE i) = true) by apply G. split.
  - intros Lt. unfold h_add. rewrite Gf, U. cbn [negb]. destruct (Nat.ltb_spec (length (K h)) (nmax h)); [|lia].
    assert (P : pre_add h (length (K h))).
    { unfold pre_add. split; [exact Ic|]. split; [exact Ind|]. split; [intros x; rewrite Ir; lia|].
      split; [lia|]. split; [lia|]. repeat (split; [assumption|]). assumption. }
    assert (W : exists k, (if length (K h) =? 0 then Ok (0, 0) else kkr h (iSSE i) (length (K h))) = Ok (k, length (K h)) /\
       k <= length (K h) /\ (forall j, j < k -> fltb (h_sse h (nth j (K h) 0)) (iSSE i) = true) /\
       (forall j, k <= j -> j < length (K h) -> fltb (h_sse h (nth j (K h) 0)) (iSSE i) = false)).
    { destruct (Nat.eqb_spec (length (K h)) 0) as [E|N].
      - rewrite E. exists 0. split; auto. split; [lia|]. split; intros; lia.
      - apply kkr_ok; auto; [intros E; rewrite E in N; auto|]. apply new_row_end; auto. lia. }
    destruct W as (k & Ek & Hk & H1 & H2).
    destruct (write_ok h i never k (length (K h)) P G Hk H1 H2) as (h' & Ew & Inv & E1 & E2 & E3 & E4 & E5 & E6 & E7 & E8 & E9 & E10).
    exists h'. unfold add_at. rewrite Ek, Ew. split; [reflexivity|]. unfold added. repeat (split; [assumption|]).
    assert (Perm := insert_at_perm nat k (length (K h)) (K h) Hk).
    split; [|split].
    + intros x. rewrite E5. split; intros Hx.
      * apply (Permutation_in _ Perm) in Hx. destruct Hx; auto.
      * apply (Permutation_in _ (Permutation_sym Perm)). destruct Hx as [->|[Hx _]]; [now left|now right].
    + intros x Hx _. apply Ir in Hx. lia.
    + repeat (split; [assumption|]). split; [|assumption]. intros x. rewrite E9. simpl. tauto.
  - intros Full. assert (C := cpf_call_spec Np_max (cp h) o Icnd ltac:(apply Nat.ltb_lt; reflexivity)).
    unfold h_add. rewrite Gf, U. cbn [negb]. destruct (Nat.ltb_spec (length (K h)) (nmax h)); [lia|].
    destruct (cpf_call Np_max (cp h) o) as [[g|e]|].
    2:{ destruct C as [-> C]. auto. }
    2:{ split; [tauto|reflexivity]. }
    destruct C as [Cg _]. split; auto. assert (Kg : In g (K h)) by (apply Icov; auto).
    assert (Gn : g < nmax h) by (rewrite <- Full; now apply Ir).
    unfold purge. rewrite (proj2 (mem_spec g (K h)) Kg).
    set (h1 := mkHist _ _ _ _ _ _ _ _ _ _).
    assert (Perm := remove1_perm g (K h) Kg).
    assert (Len : S (length (remove1 g (K h))) = nmax h) by (rewrite <- Full, (Permutation_length Perm); reflexivity).
    assert (InR := fun x => in_remove1 x g (K h) Ind Kg).
    assert (Cc : cK (cp h1) = sdel g (cK (cp h)) /\ cKn (cp h1) = sdel g (cKn (cp h))).
    { unfold h1. cbn [cp]. unfold clear_row. apply mem_spec in Cg. now rewrite Cg. }
    destruct Cc as [Cc1 Cc2].
    assert (Kpg : ~ In g (Kp h)) by (intros Hx; eapply Idis; eauto).
    assert (P : pre_add h1 g).
    { unfold pre_add. rewrite Cc1, Cc2. unfold h1. cbn [Nd nmax total locked K X Kp Kn krd].
      split; [exact Ic|]. split; [assert (ND' := Permutation_NoDup Perm Ind); now inversion ND'|].
      split; [intros x; rewrite InR, Ir; rewrite <- Full in Len; lia|]. split; [lia|]. split; [lia|].
      split; [apply remove1_sorted; exact Is|]. split; [intros x Hx; apply Id; apply InR in Hx; tauto|].
      split; [intros x; rewrite InR, !in_sdel, Icov; tauto|]. split; [intros x; rewrite !in_sdel; intros [Hx _] [Hc _]; eapply Idis; eauto|].
      split; [intros x; rewrite !in_sdel, Inev; tauto|]. split; [intros x; rewrite !in_sdel; intros [Hx ?]; auto|].
      split; [now apply nodup_sdel|]. split; [|exact Iinj]. intros q s Hq. rewrite in_sdel. split; [eapply Ikr; eauto|].
      intros ->. apply Kpg. eapply Ikr; eauto. }
    assert (W : exists k, (if length (K h) =? 0 then Ok (0, 0) else kkr h1 (iSSE i) (length (K h))) = Ok (k, g) /\
       k <= length (K h1) /\ (forall j, j < k -> fltb (h_sse h1 (nth j (K h1) 0)) (iSSE i) = true) /\
       (forall j, k <= j -> j < length (K h1) -> fltb (h_sse h1 (nth j (K h1) 0)) (iSSE i) = false)).
    { destruct (Nat.eqb_spec (length (K h)) 0) as [E|N]; [lia|]. apply kkr_ok; auto.
      - intros E. unfold h1 in E. cbn [K] in E. rewrite E in Len. simpl in Len. lia.
      - rewrite Full. unfold h1. cbn [K]. apply new_row_hole; auto.
        + assert (ND' := Permutation_NoDup Perm Ind). now inversion ND'.
        + intros x. rewrite InR, Ir, Full. tauto. }
    destruct W as (k & Ek & Hk & H1 & H2).
    assert (G1 : good h1 i) by exact G.
    destruct (write_ok h1 i never k g P G1 Hk H1 H2) as (h' & Ew & Inv & E1 & E2 & E3 & E4 & E5 & E6 & E7 & E8 & E9 & E10).
    exists h'. unfold add_at. rewrite Ek, Ew. split; [reflexivity|]. unfold added.
    unfold h1 in E1, E2, E3, E4, E7, E8, E9, E10; cbn [Nd nmax total locked K X Kp Kn krd] in E1, E2, E3, E4, E7, E8, E9, E10.
    repeat (split; [assumption|]).
    assert (Pi := insert_at_perm nat k g (K h1) Hk).
    split; [|split].
    + intros x. rewrite E5. split; intros Hx.
      * apply (Permutation_in _ Pi) in Hx. destruct Hx as [->|Hx]; auto. right. unfold h1 in Hx. cbn [K] in Hx. apply InR in Hx. simpl. intuition.
      * apply (Permutation_in _ (Permutation_sym Pi)). destruct Hx as [->|[Hx Hn]]; [now left|right]. unfold h1. cbn [K]. apply InR. split; auto.
        intros ->. apply Hn. now left.
    + intros x Hx Hn ->. apply Hn. now left.
    + split; [assumption|]. split; [assumption|]. split; [|split; [|assumption]].
      * intros x. rewrite E8, in_sdel. split; [tauto|]. intros [Hx|Hx]; auto. left. split; auto. congruence.
      * intros x. rewrite E9, in_sdel. simpl. intuition congruence.
Qed.

(** what notInPop does *)
Lemma notin_spec : forall h i, hinv h -> locked h = false -> pack_overflow i = false ->
  exists h', not_in_pop hash h i = (h', Ret None) /\ hinv h' /\ Nd h' = Nd h /\ nmax h' = nmax h /\ total h' = total h /\ locked h' = locked h /\
    X h' = X h /\ K h' = K h /\ Kn h' = Kn h /\
    (forall x, In x (Kp h') <-> In x (Kp h) /\ zget (krd h) (hash i) <> Some x) /\
    (forall q s, In (q, s) (krd h') <-> In (q, s) (krd h) /\ (q <> hash i)).
Proof.
  intros h i I U Pk. destruct I as [Ic Ind Ir Il Is Id Icov Idis Inev Ikn Icnd Ikr Iinj].
  unfold not_in_pop. rewrite U, Pk. destruct (zget (krd h) (hash i)) as [r|] eqn:Z.
  - assert (Hr := zget_in _ _ _ Z). assert (Hp := Ikr _ _ Hr). assert (HK : In r (K h)) by (apply Icov; auto).
    unfold not_in_row. assert (Hn := proj1 (Ir r) HK). destruct (Nat.ltb_spec r (nmax h)); [|lia].
    unfold set_row. destruct (Id r HK) as (_ & F & _). rewrite F. eexists. split; [reflexivity|].
    cbn [Nd nmax total locked K X Kp Kn krd cp]. split; [|].
    + constructor; cbn [Nd nmax total locked K X Kp Kn krd cp cK cKn]; auto.
      * intros x. rewrite in_sdel, in_sadd, Icov. destruct (Nat.eq_dec x r) as [->|N]; intuition.
      * intros x. rewrite in_sdel, in_sadd. intros [Hx N] [->|Hc]; [congruence|]. eapply Idis; eauto.
      * intros x Hx. rewrite in_sadd. right. auto.
      * now apply nodup_sadd.
      * intros q s. rewrite in_zdel, in_sdel. intros [Hq N]. split; [eapply Ikr; eauto|]. intros ->. apply N. eapply Iinj; eauto.
      * intros q q' s. rewrite !in_zdel. intros [Hq _] [Hq' _]. eapply Iinj; eauto.
    + repeat (split; [auto; fail|]). split; [intros x; rewrite in_sdel; intuition congruence|]. intros q s. apply in_zdel.
  - exists h. split; [reflexivity|]. split; [constructor; auto|]. repeat (split; [auto; fail|]).
    split; [intros x; intuition congruence|]. intros q s. split; [|tauto]. intros Hq. split; auto. intros ->.
    unfold zget in Z. destruct (find _ (krd h)) eqn:Ef; [discriminate|]. apply (find_none _ _ Ef) in Hq. cbn in Hq. apply Z.eqb_neq in Hq. congruence.
Qed.

Lemma clear_spec : forall h, hinv h -> locked h = false -> hinv (fst (h_clear h)).
Proof.
  intros h [Ic _ _ _ _ _ _ _ _ _ _ _ _] U. unfold h_clear. rewrite U. now apply inv_empty.
Qed.
End WithHash.
