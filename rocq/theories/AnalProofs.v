(** * Lemmas about AnalModel.v *)
From Coq Require Import Reals String Ascii Decimal DecimalString DecimalNat List Bool Arith ZArith Lia Sorted Permutation.
From Verif Require Import Flt Py RankModel ParamProofs AnalModel.
Import ListNotations.
Local Open Scope nat_scope.
#[local] Arguments fltb : simpl never.
#[local] Arguments fleb : simpl never.
#[local] Arguments fabs : simpl never.

(** ** figures *)
Lemma pick_bounds : forall n, 1 <= n -> 1 <= pick_N n <= 9 /\ pick_N n <= n /\ (n <> 1 -> pick_N n <> 1 /\ n - pick_N n <> 1).
Proof.
  intros n H. unfold pick_N. destruct (Nat.eqb_spec n 8); [subst; simpl; lia|]. destruct (Nat.eqb_spec n 10); [subst; simpl; lia|]. simpl orb. cbv iota.
  destruct (Nat.ltb_spec 8 n); lia.
Qed.
Lemma fig_cols : forall n, 1 <= n <= 9 -> 1 <= fig_columns n <= 3 /\ n <= 3 * fig_columns n.
Proof. intros n H. unfold fig_columns. destruct (Nat.eqb_spec n 1); [lia|]. destruct (Nat.ltb_spec 6 n); lia. Qed.
Lemma fig_loop_spec : forall A fuel (l : list A), length l <= fuel -> exists figs, fig_loop fuel l = Some figs /\ concat (map fst figs) = l /\
  (figs = [] -> l = []) /\
  Forall (fun f => 1 <= length (fst f) <= 9 /\ (length (fst f) = 1 -> length l = 1) /\ 1 <= snd f <= 3 /\ length (fst f) <= 3 * snd f) figs.
Proof.
  induction fuel as [|fuel IH]; intros l H.
  - destruct l; [|simpl in H; lia]. exists []. simpl. auto.
  - destruct l as [|a l']; [exists []; simpl; auto|]. set (l := a :: l') in *.
    assert (L : 1 <= length l) by (subst l; simpl; lia).
    destruct (pick_bounds _ L) as (P1 & P2 & P3).
    destruct (IH (skipn (pick_N (length l)) l)) as (figs & E & C & _ & F); [rewrite skipn_length; lia|].
    exists ((firstn (pick_N (length l)) l, fig_columns (pick_N (length l))) :: figs).
    split; [subst l; cbn [fig_loop]; cbv zeta; rewrite E; reflexivity|]. split; [cbn [map fst concat]; rewrite C; apply firstn_skipn|].
    split; [discriminate|]. assert (LF : length (firstn (pick_N (length l)) l) = pick_N (length l)) by (rewrite firstn_length; lia).
    destruct (fig_cols _ P1) as [Q1 Q2]. constructor.
    + cbn [fst snd]. rewrite LF. repeat split; lia.
    + eapply Forall_impl; [|exact F]. intros [x y]. cbn [fst snd]. rewrite skipn_length. intros (A1 & A2 & A3 & A4). repeat split; lia.
Qed.

(** ** names *)
Lemma index_of_nodup : forall names k n, NoDup names -> nth_error names k = Some n -> index_of (String.eqb n) names = Some k.
Proof.
  intros names k n N E. destruct (sindex_nth names n (nth_error_In _ _ E)) as [].
  destruct (index_of_in _ (String.eqb n) names n (nth_error_In _ _ E) (String.eqb_refl n)) as [j J].
  destruct (index_of_nth _ _ _ _ J) as (x & X1 & X2 & _). apply String.eqb_eq in X2. subst x. rewrite J. f_equal. eapply NoDup_nth_inj; eauto.
Qed.

(** ** strings *)
Lemma app_assoc_s : forall a b c : string, ((a ++ b) ++ c = a ++ (b ++ c))%string.
Proof. induction a; intros; simpl; congruence. Qed.
Lemma app_nil_s : forall a : string, (a ++ "")%string = a.
Proof. induction a; simpl; congruence. Qed.
Lemma app_inj_l : forall a b c : string, (a ++ b = a ++ c)%string -> b = c.
Proof. induction a; simpl; intros; auto. apply IHa. congruence. Qed.
Lemma slen_app : forall a b, String.length (a ++ b) = String.length a + String.length b.
Proof. induction a; simpl; intros; auto. Qed.
Lemma app_inj_r : forall a b c : string, (b ++ a = c ++ a)%string -> b = c.
Proof.
  intros a b. induction b as [|x b IH]; intros [|y c]; simpl; intros E; auto.
  - apply (f_equal String.length) in E. simpl in E. rewrite slen_app in E. lia.
  - apply (f_equal String.length) in E. simpl in E. rewrite slen_app in E. lia.
  - injection E as -> E. f_equal. auto.
Qed.
Lemma join_inj : forall d a b, path_join d a = path_join d b -> a = b.
Proof.
  intros d a b. unfold path_join. destruct (_ || _); intros E; [now apply app_inj_l in E|]. apply app_inj_l in E. now apply app_inj_l in E.
Qed.
Lemma dec_inj : forall m n, dec m = dec n -> m = n.
Proof.
  intros m n E. unfold dec in E. apply (f_equal NilEmpty.uint_of_string) in E. rewrite !NilEmpty.usu in E. injection E as E.
  apply (f_equal Nat.of_uint) in E. now rewrite !Unsigned.of_to in E.
Qed.

(** the n-th path (n >= 1) of a spec whose count is 0 *)
Definition numbered (s : fspec) (n : nat) : string :=
  path_join (f_dir s) (f_base s ++ (if Nat.ltb 1 n then "-" ++ dec n else "") ++ "." ++ f_ext s)%string.
Lemma next_paths_spec : forall n s, next_paths n s = map (fun k => numbered s (f_count s + k)) (seq 1 n).
Proof.
  induction n as [|n IH]; intros s; auto. cbn [next_paths seq map]. unfold next_path. cbv zeta. f_equal.
  - unfold numbered. rewrite Nat.add_1_r. destruct (1 <? S (f_count s)); auto.
  - rewrite IH. cbn [f_count]. rewrite <- (seq_shift n 1), map_map. apply map_ext. intros k. unfold numbered. cbn [f_dir f_base f_ext]. now rewrite Nat.add_succ_r.
Qed.
Lemma numbered_inj : forall s m n, 1 <= m -> 1 <= n -> numbered s m = numbered s n -> m = n.
Proof.
  intros s m n Hm Hn E. unfold numbered in E. apply join_inj, app_inj_l in E.
  destruct (Nat.ltb_spec 1 m), (Nat.ltb_spec 1 n).
  - rewrite !app_assoc_s in E. apply app_inj_l in E. apply app_inj_r in E. now apply dec_inj.
  - discriminate.
  - discriminate.
  - lia.
Qed.

(** paths *)
Fixpoint has_char (c : ascii) (s : string) : bool :=
  match s with EmptyString => false | String a r => Ascii.eqb a c || has_char c r end.
Lemma last_split_none : forall c s, has_char c s = false -> last_split c s = None.
Proof. induction s; simpl; intros; auto. apply orb_false_iff in H as [A B]. rewrite IHs, A; auto. Qed.
Lemma last_split_app : forall c a b, has_char c b = false -> last_split c (a ++ String c b) = Some (a, b).
Proof.
  induction a; simpl; intros b H.
  - rewrite last_split_none, Ascii.eqb_refl; auto.
  - now rewrite IHa.
Qed.
Lemma has_char_app : forall c a b, has_char c (a ++ b) = has_char c a || has_char c b.
Proof. induction a; simpl; intros; auto. now rewrite IHa, orb_assoc. Qed.
Lemma lstrip_none : forall c s, has_char c s = false -> lstrip c s = s.
Proof. destruct s; simpl; auto. intros H. apply orb_false_iff in H as [-> _]. auto. Qed.
Lemma all_char_app : forall c a b, all_char c (a ++ b) = all_char c a && all_char c b.
Proof. induction a; simpl; intros; auto. now rewrite IHa, andb_assoc. Qed.
Lemma ends_app : forall c a x, ends_with c (a ++ String x "") = Ascii.eqb x c.
Proof. induction a; intros; simpl; auto. destruct (a0 ++ String x "")%string eqn:E; [destruct a0; discriminate|]. rewrite <- E. auto. Qed.
Lemma rstrip_id : forall c s, ends_with c s = false -> rstrip c s = s.
Proof.
  induction s as [|a s IH]; auto. intros H. destruct s as [|b s]; [cbn in H |- *; now rewrite H|].
  cbn [rstrip]. cbn [rstrip] in IH. rewrite IH; auto.
Qed.
Lemma rstrip_snoc : forall c s, rstrip c (s ++ String c "") = rstrip c s.
Proof. induction s; [simpl; now rewrite Ascii.eqb_refl|simpl]. now rewrite IHs. Qed.
Lemma all_char_ends : forall c s, s <> ""%string -> all_char c s = true -> ends_with c s = true.
Proof.
  induction s as [|a s IH]; intros N H; [congruence|]. cbn [all_char] in H. apply andb_true_iff in H as [H1 H2]. destruct s; auto. cbn [ends_with]. apply IH; [discriminate|auto].
Qed.

(** ** correlations *)
Lemma rins_perm : forall x l, Permutation (rins x l) (x :: l).
Proof. induction l; simpl; auto. destruct (fltb _ _); auto. rewrite perm_swap. constructor. auto. Qed.
Lemma corr_perm : forall l, Permutation (fold_right rins [] l) l.
Proof. induction l; simpl; auto. rewrite rins_perm. now constructor. Qed.
Lemma kkR_in : forall corr Nc k1 k2 R, In (k1, k2, R) (kkR corr Nc) <-> 1 <= k1 /\ k1 < k2 /\ k2 < Nc /\ R = corr k1 k2.
Proof.
  intros. unfold kkR. rewrite in_flat_map. split.
  - intros (x & X & I). apply in_flat_map in I as (y & Y & I). apply in_seq in X, Y. destruct (Nat.ltb_spec x y); [|destruct I].
    destruct I as [I|[]]. injection I as <- <- <-. repeat split; auto; lia.
  - intros (A & B & C & ->). exists k1. split; [apply in_seq; lia|]. apply in_flat_map. exists k2. split; [apply in_seq; lia|].
    destruct (Nat.ltb_spec k1 k2); [simpl; auto|lia].
Qed.
Definition lex (a b : row) : Prop := fst (fst a) < fst (fst b) \/ (fst (fst a) = fst (fst b) /\ snd (fst a) < snd (fst b)).
Lemma ssorted_app : forall A (R : A -> A -> Prop) a b, StronglySorted R a -> StronglySorted R b ->
  (forall x y, In x a -> In y b -> R x y) -> StronglySorted R (a ++ b).
Proof.
  induction a; simpl; intros b Sa Sb H; auto. inversion Sa; subst. constructor; [apply IHa; auto|].
  apply Forall_app. split; auto. apply Forall_forall. auto.
Qed.
Lemma seq_lt : forall n a, StronglySorted lt (seq a n).
Proof. induction n; simpl; constructor; auto. apply Forall_forall. intros x I. apply in_seq in I. lia. Qed.
Lemma inner_lex : forall corr k1 l, StronglySorted lt l -> StronglySorted lex (flat_map (fun k2 => if k1 <? k2 then [(k1, k2, corr k1 k2)] else []) l).
Proof.
  intros corr k1. induction l as [|y l IH]; simpl; intros Sl; [constructor|]. inversion Sl; subst. apply ssorted_app; auto.
  - destruct (k1 <? y); repeat constructor.
  - intros x z X Z. destruct (k1 <? y); [|destruct X]. destruct X as [<-|[]]. apply in_flat_map in Z as (w & W & Z).
    rewrite Forall_forall in H2. specialize (H2 w W). destruct (k1 <? w); [|destruct Z]. destruct Z as [<-|[]]. right. simpl. auto.
Qed.
Lemma outer_lex : forall corr L l, StronglySorted lt L -> StronglySorted lt l ->
  StronglySorted lex (flat_map (fun k1 => flat_map (fun k2 => if k1 <? k2 then [(k1, k2, corr k1 k2)] else []) L) l).
Proof.
  intros corr L. induction l as [|y l IH]; simpl; intros SL Sl; [constructor|]. inversion Sl; subst. apply ssorted_app; auto; [now apply inner_lex|].
  intros x z X Z. apply in_flat_map in X as (a & _ & X). destruct (y <? a); [|destruct X]. destruct X as [<-|[]].
  apply in_flat_map in Z as (b & B & Z). apply in_flat_map in Z as (c & _ & Z). destruct (b <? c); [|destruct Z]. destruct Z as [<-|[]].
  rewrite Forall_forall in H2. left. simpl. auto.
Qed.
Lemma kkR_lex : forall corr Nc, StronglySorted lex (kkR corr Nc).
Proof. intros. apply outer_lex; apply seq_lt. Qed.

Lemma fabs_nan : forall x, isnan (fabs x) = isnan x.
Proof. intros [| | |]; reflexivity. Qed.
(** strongest first, and pairs of equal strength in the order of the list before *)
Definition before (a b : row) : Prop :=
  fltb (fabs (r_R b)) (fabs (r_R a)) = true \/ (feqb (fabs (r_R a)) (fabs (r_R b)) = true /\ lex a b).
Lemma rins_sorted : forall x l, isnan (r_R x) = false -> Forall (fun r => isnan (r_R r) = false) l ->
  Forall (fun r => lex x r) l -> StronglySorted before l -> StronglySorted before (rins x l).
Proof.
  induction l as [|h t IH]; intros Nx Nl Lx Sl; simpl; [repeat constructor|]. inversion Sl; subst. inversion Nl; subst. inversion Lx; subst.
  assert (NX : isnan (fabs (r_R x)) = false) by now rewrite fabs_nan. assert (NH : isnan (fabs (r_R h)) = false) by now rewrite fabs_nan.
  destruct (fltb (fabs (r_R x)) (fabs (r_R h))) eqn:E.
  - constructor; [apply IH; auto|]. eapply Permutation_Forall; [symmetry; apply rins_perm|]. constructor; [now left|auto].
  - constructor; auto. assert (LE : fleb (fabs (r_R h)) (fabs (r_R x)) = true) by (rewrite fltb_negb in E; auto; now apply negb_false_iff in E).
    rewrite Forall_forall in *. intros y [<-|Y].
    + destruct (fltb (fabs (r_R h)) (fabs (r_R x))) eqn:E2; [now left|right; split; auto].
      apply feqb_spec. split; auto. split; auto. apply fltb_false in E, E2; auto. apply Rle_antisym; auto.
    + specialize (H2 y Y). assert (NY : isnan (fabs (r_R y)) = false) by (rewrite fabs_nan; auto).
      destruct H2 as [A|[A _]]; [left; eapply fltb_fleb_trans; eauto|].
      apply feqb_spec in A as (_ & _ & A). destruct (fltb (fabs (r_R y)) (fabs (r_R x))) eqn:E2; [now left|right; split; auto].
      apply feqb_spec. split; auto. split; auto. apply fltb_false in E2; auto. apply fleb_spec in LE as (_ & _ & LE). rewrite A in LE. apply Rle_antisym; auto.
Qed.
Lemma corr_sorted : forall l, Forall (fun r => isnan (r_R r) = false) l -> StronglySorted lex l -> StronglySorted before (fold_right rins [] l).
Proof.
  induction l; simpl; intros N S; [constructor|]. inversion N; subst. inversion S; subst. apply rins_sorted; auto;
    eapply Permutation_Forall; try (symmetry; apply corr_perm); auto.
Qed.

(** ** plotCorrelated *)
Definition first_is (k : nat) (r : row) : bool := fst (fst r) =? k.
Fixpoint take_count (N count : nat) (l : list row) : list row :=
  match l with [] => [] | r :: l => if S count =? N then [r] else r :: take_count N (S count) l end.
Lemma take_count_firstn : forall N l c, c < N -> take_count N c l = firstn (N - c) l.
Proof.
  induction l as [|r l IH]; intros c H; [simpl; now rewrite firstn_nil|]. cbn [take_count]. destruct (Nat.eqb_spec (S c) N).
  - replace (N - c) with 1 by lia. reflexivity.
  - rewrite IH by lia. replace (N - c) with (S (N - S c)) by lia. reflexivity.
Qed.
Lemma loop_all : forall names N l c, corr_loop names "" N c l = Ok (take_count N c l).
Proof. induction l; intros; auto. cbn [corr_loop take_count String.eqb]. destruct (S c =? N); auto. now rewrite IHl. Qed.
Lemma k2name_nth : forall names k n, nth_error names k = Some n -> k2name names (Z.of_nat (S k)) = Ok n.
Proof.
  intros. unfold k2name, py_index. replace (Z.of_nat (S k) - 1)%Z with (Z.of_nat k) by lia.
  destruct (Z.ltb_spec (Z.of_nat k) 0); [lia|]. destruct (Z.ltb_spec (Z.of_nat k) 0); [lia|]. now rewrite Nat2Z.id, H.
Qed.
Lemma loop_name : forall names k name N l c, NoDup names -> nth_error names k = Some name -> name <> ""%string ->
  Forall (fun r => 1 <= fst (fst r) <= length names) l ->
  corr_loop names name N c l = Ok (take_count N c (filter (first_is (S k)) l)).
Proof.
  intros names k name N l. induction l as [|r l IH]; intros c ND E NE F; auto. inversion F; subst. cbn [corr_loop].
  apply String.eqb_neq in NE as NE'. rewrite NE'. destruct (fst (fst r)) as [|j] eqn:J; [lia|].
  destruct (nth_error names j) as [nm|] eqn:Ej; [|apply nth_error_None in Ej; lia].
  rewrite (k2name_nth _ _ _ Ej). cbn [bind filter]. unfold first_is at 1. rewrite J.
  destruct (String.eqb_spec name nm).
  - subst nm. assert (j = k) by (eapply NoDup_nth_inj; eauto). subst j. rewrite Nat.eqb_refl. cbn [take_count].
    destruct (S c =? N); auto. rewrite IH; auto.
  - destruct (Nat.eqb_spec (S j) (S k)); [congruence|]. apply IH; auto.
Qed.
Lemma kkR_rows : forall corr Nc r, In r (correlator corr Nc) <-> 1 <= fst (fst r) /\ fst (fst r) < snd (fst r) /\ snd (fst r) < Nc /\ snd r = corr (fst (fst r)) (snd (fst r)).
Proof.
  intros corr Nc [[a b] c]. cbn [fst snd]. rewrite <- kkR_in. unfold correlator. split; apply Permutation_in; [|symmetry]; apply corr_perm.
Qed.
