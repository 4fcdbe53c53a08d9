(** Proofs about the log table *)
From Coq Require Import ZArith String Ascii List Bool Arith Lia Permutation Sorted Reals Lra DecimalString DecimalNat.
From Verif Require Import Flt FltMore Py ParamModel RankModel SampFloat RankProofs LggModel.
Import ListNotations.
#[local] Arguments fltb : simpl never.
#[local] Arguments fleb : simpl never.
#[local] Arguments fmul : simpl never.

Lemma np_min_ok : forall l, l <> [] -> (forall x, In x l -> isnan x = false) -> In (np_min l) l /\ forall x, In x l -> fleb (np_min l) x = true.
Proof.
  intros [|x l] NE H; [congruence|]. clear NE. unfold np_min.
  assert (G : forall l x, (forall y, In y (x :: l) -> isnan y = false) -> In (fold_left fmin2 l x) (x :: l) /\ forall y, In y (x :: l) -> fleb (fold_left fmin2 l x) y = true).
  { clear. induction l as [|y l IH]; intros x H; simpl fold_left.
    - split; [simpl; auto|]. intros y [<-|[]]. apply fleb_refl, H; simpl; auto.
    - assert (NX : isnan x = false) by (apply H; simpl; auto). assert (NY : isnan y = false) by (apply H; simpl; auto).
      destruct (IH (fmin2 x y)) as [A B].
      { intros z [<-|I]; [|apply H; simpl; auto]. unfold fmin2. destruct (fltb y x); auto. }
      assert (M : fleb (fold_left fmin2 l (fmin2 x y)) (fmin2 x y) = true) by (apply B; simpl; auto). split.
      + destruct A as [A|A]; [|simpl; auto]. rewrite <- A. unfold fmin2. destruct (fltb y x); simpl; auto.
      + assert (MX : fleb (fmin2 x y) x = true /\ fleb (fmin2 x y) y = true).
        { unfold fmin2. destruct (fltb y x) eqn:E; split; auto using fltb_fleb, fleb_refl. destruct (fleb_total x y NX NY) as [T|T]; auto. congruence. }
        intros z [<-|[<-|I]]; [eapply fleb_trans; [exact M|tauto]|eapply fleb_trans; [exact M|tauto]|apply B; simpl; auto]. }
  apply G; auto.
Qed.

(** consecutive elements are related *)
Fixpoint consec {A} (P : A -> A -> Prop) (l : list A) : Prop :=
  match l with a :: ((b :: _) as t) => P a b /\ consec P t | _ => True end.

Section Scan.
Variable t : nat -> row.
Variables lim maxDiff : f64.
Notation S k := (rSSE (t k)).
Notation scan := (trim_scan t lim maxDiff).
Lemma scan_incl : forall K last k, In k (scan last K) -> In k K.
Proof.
  induction K as [|k K IH]; intros last k'; cbn [trim_scan]; [tauto|]. destruct (fltb _ _); [intros []|]. destruct (differs _ _ _); [intros [<-|I]; [simpl; auto|right; eauto]|intros I; right; eauto].
Qed.
Lemma scan_nodup : forall K last, NoDup K -> NoDup (scan last K).
Proof.
  induction K as [|k K IH]; intros last ND; cbn [trim_scan]; [constructor|]. inversion ND; subst. destruct (fltb _ _); [constructor|]. destruct (differs _ _ _); auto. constructor; auto. intros I. apply scan_incl in I. tauto.
Qed.
Lemma scan_sorted : forall R K last, StronglySorted R K -> StronglySorted R (scan last K).
Proof.
  intros R. induction K as [|k K IH]; intros last ND; cbn [trim_scan]; [constructor|]. inversion ND; subst. destruct (fltb _ _); [constructor|]. destruct (differs _ _ _); auto. constructor; auto.
  rewrite Forall_forall in *. intros x I. apply scan_incl in I. auto.
Qed.
Lemma scan_ratio : forall K last k, In k (scan last K) -> fltb lim (S k) = false.
Proof.
  induction K as [|k K IH]; intros last k'; cbn [trim_scan]; [intros []|]. destruct (fltb _ _) eqn:E; [intros []|]. destruct (differs _ _ _); [intros [<-|I]; eauto|eauto].
Qed.
Lemma scan_consec : forall K last, consec (fun a b => differs maxDiff (t b) (t a) = true) (last :: scan last K).
Proof.
  induction K as [|k K IH]; intros last; cbn [trim_scan]; [exact I|]. destruct (fltb _ _); [exact I|]. destruct (differs maxDiff (t k) (t last)) eqn:E.
  - split; auto.
  - apply IH.
Qed.
Lemma scan_drop : forall K last k, StronglySorted (fun a b => fleb (S a) (S b) = true) (last :: K) -> In k K -> ~ In k (scan last K) ->
  fltb lim (S k) = true \/
  exists a, In a (last :: scan last K) /\ fleb (S a) (S k) = true /\ differs maxDiff (t k) (t a) = false /\
    forall b, In b (last :: scan last K) -> fleb (S b) (S a) = true \/ fleb (S k) (S b) = true.
Proof.
  induction K as [|k K IH]; intros last k' SS I N; [destruct I|]. cbn [trim_scan] in *. inversion SS as [|? ? SS1 F1]; subst. inversion SS1 as [|? ? SS2 F2]; subst. rewrite Forall_forall in F1, F2.
  destruct (fltb lim (S k)) eqn:E.
  - left. destruct I as [<-|I]; auto. eapply fltb_fleb_trans; [exact E|auto].
  - destruct (differs maxDiff (t k) (t last)) eqn:D.
    + destruct I as [<-|I]; [exfalso; apply N; simpl; auto|]. destruct (IH k k' SS1 I) as [X|(a & A & B & C & G)]; [intros J; apply N; simpl; auto|auto|].
      right. exists a. split; [simpl in *; tauto|]. split; auto. split; auto. intros b [<-|J]; [|auto]. left.
      assert (X : fleb (S last) (S k) = true) by (apply F1; simpl; auto). destruct A as [<-|A]; auto. apply scan_incl in A. eapply fleb_trans; [exact X|auto].
    + assert (SS' : StronglySorted (fun a b => fleb (S a) (S b) = true) (last :: K)) by (constructor; auto; rewrite Forall_forall; intros x J; apply F1; simpl; auto).
      destruct I as [<-|I]; [|now apply IH]. right. exists last. split; [simpl; auto|]. assert (X : fleb (S last) (S k) = true) by (apply F1; simpl; auto). split; auto. split; auto.
      intros b [<-|J]; [left|right]. { apply fleb_refl. now apply fleb_nan in X. } apply scan_incl in J. auto.
Qed.
End Scan.

Lemma argsort_sorted : forall argsort rows, is_argsort argsort -> (forall r, In r rows -> isnan (rSSE r) = false) ->
  StronglySorted (fun a b => fleb (rSSE (nth a rows row0)) (rSSE (nth b rows row0)) = true) (argsort (map rSSE rows)) /\
  Permutation (argsort (map rSSE rows)) (seq 0 (length rows)).
Proof.
  intros argsort rows AS N. destruct (AS (map rSSE rows)) as [P O]. rewrite map_length in P. split; auto.
  assert (V : forall k, In k (argsort (map rSSE rows)) -> k < length rows) by (intros k I; apply (Permutation_in _ P) in I; apply in_seq in I; lia).
  revert O V. generalize (argsort (map rSSE rows)) as K. induction K as [|k K IH]; intros O V; constructor.
  - apply IH; [|intros; apply V; simpl; auto]. intros i j a b x y Hij A B. apply (O (Datatypes.S i) (Datatypes.S j)); auto. lia.
  - rewrite Forall_forall. intros b I. destruct (In_nth_error _ _ I) as [j J].
    assert (Vk : k < length rows) by (apply V; simpl; auto). assert (Vb : b < length rows) by (apply V; simpl; auto).
    assert (G : forall m, m < length rows -> nth_error (map rSSE rows) m = Some (rSSE (nth m rows row0))) by (intros m Hm; apply map_nth_error, nth_error_nth'; auto).
    destruct (O 0 (Datatypes.S j) k b _ _ ltac:(lia) eq_refl J (G _ Vk) (G _ Vb)) as [X|X]; auto.
    rewrite N in X; [discriminate|now apply nth_In].
Qed.
Lemma lastn_split : forall {A} n (l : list A), exists d, l = d ++ lastn n l /\ (n = 0 -> d = []) /\ (1 <= n -> length (lastn n l) <= n) /\ (d = [] \/ length (lastn n l) = n).
Proof.
  intros A n l. destruct n as [|n]; cbn [lastn].
  - exists []. repeat split; auto. lia.
  - exists (firstn (length l - S n) l). rewrite firstn_skipn, skipn_length. split; auto. split; [discriminate|]. split; [lia|].
    destruct (le_lt_dec (length l) (S n)); [left|right; lia]. replace (length l - S n) with 0 by lia. reflexivity.
Qed.
Lemma trim_shape : forall argsort rows maxRatio maxDiff maxRows, is_argsort argsort -> rows <> [] -> (forall r, In r rows -> isnan (rSSE r) = false) ->
  let t := fun k => nth k rows row0 in
  exists k0 K, argsort (map rSSE rows) = k0 :: K /\
    StronglySorted (fun a b => fleb (rSSE (t a)) (rSSE (t b)) = true) (k0 :: K) /\ Permutation (k0 :: K) (seq 0 (length rows)) /\
    trim_ks argsort rows maxRatio maxDiff maxRows = Ok (rev (lastn maxRows (k0 :: trim_scan t (fmul maxRatio (np_min (map rSSE rows))) maxDiff k0 K))).
Proof.
  intros argsort rows maxRatio maxDiff maxRows AS NE N t. destruct (argsort_sorted argsort rows AS N) as [SS P]. unfold trim_ks. destruct (argsort (map rSSE rows)) as [|k0 K] eqn:E.
  - apply Permutation_length in P. rewrite seq_length in P. destruct rows; [congruence|discriminate].
  - exists k0, K. repeat split; auto. destruct rows; [congruence|]. reflexivity.
Qed.

(** ** Name ranges *)
Local Open Scope string_scope.
Fixpoint all_s (f : ascii -> bool) (s : string) : bool := match s with EmptyString => true | String c s => f c && all_s f s end.
Fixpoint last_s (d : ascii) (s : string) : ascii := match s with EmptyString => d | String c s => last_s c s end.
Lemma app_assoc_s : forall a b c : string, (a ++ b) ++ c = a ++ b ++ c.
Proof. induction a; simpl; intros; auto. now rewrite IHa. Qed.
Lemma app_nil_s : forall a : string, a ++ "" = a.
Proof. induction a; simpl; congruence. Qed.
Lemma app_length_s : forall a b : string, String.length (a ++ b) = (String.length a + String.length b)%nat.
Proof. induction a; simpl; intros; auto. Qed.
Lemma all_app : forall f a b, all_s f (a ++ b) = all_s f a && all_s f b.
Proof. intros f. induction a; simpl; intros; auto. rewrite IHa. now rewrite andb_assoc. Qed.
Lemma last_app : forall a b d, last_s d (a ++ b) = last_s (last_s d a) b.
Proof. induction a; simpl; intros; auto. Qed.
Lemma last_all : forall f s d, all_s f s = true -> f d = true -> f (last_s d s) = true.
Proof. intros f. induction s; simpl; intros; auto. apply andb_true_iff in H as [? ?]. auto. Qed.

Lemma span_ok : forall d r, all_s is_digit d = true -> match r with String c _ => is_digit c = false | EmptyString => True end -> span_digits (d ++ r) = (d, r).
Proof.
  induction d as [|c d IH]; simpl; intros r H R.
  - destruct r as [|c r]; auto. simpl. now rewrite R.
  - apply andb_true_iff in H as [-> H]. now rewrite IH.
Qed.
Lemma span_inv : forall s d r, span_digits s = (d, r) -> s = d ++ r /\ all_s is_digit d = true /\ match r with String c _ => is_digit c = false | EmptyString => True end.
Proof.
  induction s as [|c s IH]; simpl; intros d r H.
  - injection H as <- <-. auto.
  - destruct (is_digit c) eqn:E.
    + destruct (span_digits s) as [d' r'] eqn:E'. injection H as <- <-. destruct (IH _ _ eq_refl) as (-> & B & C). simpl. rewrite E. auto.
    + injection H as <- <-. simpl. auto.
Qed.
Lemma num_tail_ok : forall d1 d2, d1 <> "" -> d2 <> "" -> all_s is_digit d1 = true -> all_s is_digit d2 = true -> num_tail (d1 ++ "-" ++ d2) = Some (d1, d2).
Proof.
  intros d1 d2 N1 N2 A1 A2. unfold num_tail. rewrite span_ok by (auto; reflexivity). destruct d1 as [|c d1]; [congruence|]. change ("-" ++ d2) with (String "-" d2). cbv iota. rewrite Ascii.eqb_refl.
  assert (E : span_digits d2 = (d2, "")) by (rewrite <- (app_nil_s d2) at 1; apply span_ok; auto). rewrite E. destruct d2; [congruence|reflexivity].
Qed.
Lemma num_tail_inv : forall s d1 d2, num_tail s = Some (d1, d2) -> s = d1 ++ "-" ++ d2 /\ d1 <> "" /\ d2 <> "" /\ all_s is_digit d1 = true /\ all_s is_digit d2 = true.
Proof.
  intros s d1 d2. unfold num_tail. destruct (span_digits s) as [[|c d] r] eqn:E; [discriminate|]. destruct r as [|h s2]; [discriminate|]. destruct (Ascii.eqb_spec h "-") as [->|]; [|discriminate].
  destruct (span_digits s2) as [[|c2 e] [|]] eqn:E2; try discriminate. intros H. injection H as <- <-. apply span_inv in E as (-> & A & _). apply span_inv in E2 as (-> & B & _). rewrite app_nil_s. repeat split; auto; discriminate.
Qed.
Lemma letter_tail_inv : forall s a b, letter_tail s = Some (a, b) -> s = String a ("-" ++ String b "") /\ is_lowercase a = true /\ is_lowercase b = true.
Proof.
  intros s a b. destruct s as [|a0 [|h [|b0 [|]]]]; simpl; try discriminate. destruct (is_lowercase a0) eqn:A; [|discriminate]. simpl. destruct (Ascii.eqb_spec h "-") as [->|]; [|discriminate]. simpl. destruct (is_lowercase b0) eqn:B; [|discriminate].
  intros H. injection H as <- <-. auto.
Qed.
Lemma range_inv : forall {B} (tail : string -> option B) s pre q b, range_match tail pre s = Some (q, b) ->
  exists p r, s = p ++ r /\ q = pre ++ p /\ p <> "" /\ all_s is_word p = true /\ tail r = Some b.
Proof.
  intros B tail. induction s as [|c s IH]; intros pre q b; cbn [range_match]; [discriminate|]. destruct (is_word c) eqn:W; [|discriminate]. destruct (tail s) eqn:T.
  - intros H. injection H as <- <-. exists (String c ""), s. simpl. rewrite W. repeat split; auto. discriminate.
  - intros H. apply IH in H as (p & r & -> & -> & N & A & T'). exists (String c p), r. simpl. rewrite W. rewrite app_assoc_s. repeat split; auto. discriminate.
Qed.
Lemma range_ok : forall {B} (tail : string -> option B) p r pre b, p <> "" -> all_s is_word p = true -> tail r = Some b ->
  (forall x y, p = x ++ y -> x <> "" -> y <> "" -> tail (y ++ r) = None) -> range_match tail pre (p ++ r) = Some (pre ++ p, b).
Proof.
  intros B tail. induction p as [|c p IH]; intros r pre b N A T F; [congruence|]. simpl in A. apply andb_true_iff in A as [W A]. change (String c p ++ r) with (String c (p ++ r)). cbn [range_match]. rewrite W. destruct p as [|c' p].
  - change ("" ++ r) with r. rewrite T. reflexivity.
  - rewrite (F (String c "") (String c' p)); auto; try discriminate. rewrite (IH r (pre ++ String c "") b); auto; try discriminate.
    + now rewrite app_assoc_s.
    + intros x y E NX NY. apply (F (String c x) y); auto; [|discriminate]. simpl. now rewrite E.
Qed.
Lemma str_digits : forall n, all_s is_digit (py_str n) = true /\ py_str n <> "".
Proof.
  intros n. unfold py_str. assert (G : forall d, all_s is_digit (NilEmpty.string_of_uint d) = true) by (induction d; auto). destruct (Nat.to_uint n); split; try discriminate; auto; apply (G (Decimal.D0 u)) || idtac; try exact (G u); try reflexivity.
Qed.
Lemma int_str : forall n, py_int (py_str n) = n.
Proof.
  intros n. unfold py_int, py_str. rewrite NilZero.usu; [apply Unsigned.of_to|]. intros E. assert (n = 0%nat) by (rewrite <- (Unsigned.of_to n), E; reflexivity). subst n. discriminate.
Qed.
Lemma last_digit_app : forall y d, y <> "" -> last_s d y = last_s "x" y.
Proof. intros [|c y] d N; [congruence|reflexivity]. Qed.
Lemma digit_word : forall c, is_digit c = true -> is_word c = true.
Proof. intros c H. unfold is_word. now rewrite H. Qed.
Lemma hyphen_split : forall a b x y, all_s is_word a = true -> all_s is_word x = true -> a ++ String "-" b = x ++ String "-" y -> a = x /\ b = y.
Proof.
  induction a as [|c a IH]; intros b [|c' x] y A X E; simpl in *.
  - now injection E.
  - injection E as <- E. discriminate.
  - injection E as -> E. discriminate.
  - injection E as -> E. apply andb_true_iff in A as [_ A]. apply andb_true_iff in X as [_ X]. destruct (IH _ _ _ A X E) as [-> ->]. auto.
Qed.
Lemma all_weaken : forall f g s, (forall c, f c = true -> g c = true) -> all_s f s = true -> all_s g s = true.
Proof. intros f g s H. induction s; simpl; auto. intros E. apply andb_true_iff in E as [? ?]. rewrite H; auto. Qed.
Lemma num_no_tail : forall y d1 d2, y <> "" -> all_s is_word y = true -> is_digit (last_s "x" y) = false -> all_s is_digit d1 = true -> num_tail (y ++ d1 ++ "-" ++ d2) = None.
Proof.
  intros y d1 d2 N W L D. destruct (num_tail _) as [[e1 e2]|] eqn:E; auto. apply num_tail_inv in E as (E & N1 & _ & A1 & _). exfalso.
  rewrite <- app_assoc_s in E. apply hyphen_split in E as [E _].
  - assert (A : all_s is_digit y = true) by (rewrite <- E, all_app in A1; apply andb_true_iff in A1; tauto). destruct y as [|c y]; [congruence|]. simpl in L, A. apply andb_true_iff in A as [A A'].
    rewrite (last_all is_digit y c) in L; auto. discriminate.
  - rewrite all_app, W. apply (all_weaken is_digit); auto using digit_word.
  - apply (all_weaken is_digit); auto using digit_word.
Qed.

(** ** Starred names *)
Local Open Scope nat_scope.
Local Open Scope list_scope.
Definition distinct_SSE (es : list entry) : Prop := (forall e, In e es -> isnan (fst e) = false) /\ ForallOrdPairs (fun a b => feqb (fst a) (fst b) = false) es.
(** the number of entries with a lower SSE *)
Definition better (es : list entry) (s : f64) : nat := length (filter (fun e => fltb (fst e) s) es).

Lemma feqb_refl : forall x, isnan x = false -> feqb x x = true.
Proof. intros x H. apply feqb_spec. auto. Qed.
Lemma feqb_sym : forall x y, feqb x y = feqb y x.
Proof. intros x y. destruct (feqb x y) eqn:E; destruct (feqb y x) eqn:E'; auto. - apply feqb_spec in E as (A & B & C). assert (feqb y x = true) by (apply feqb_spec; auto). congruence. - apply feqb_spec in E' as (A & B & C). assert (feqb x y = true) by (apply feqb_spec; auto). congruence. Qed.
Lemma dist_pair : forall es a b, distinct_SSE es -> In a es -> In b es -> a = b \/ feqb (fst a) (fst b) = false.
Proof.
  intros es a b [_ F] A B. destruct (ForallOrdPairs_In F _ _ A B) as [->|[H|H]]; auto. right. now rewrite feqb_sym.
Qed.
Lemma dist_nodup : forall es, distinct_SSE es -> NoDup es.
Proof.
  induction es as [|e es IH]; intros [N F]; constructor; inversion F; subst.
  - intros I. rewrite Forall_forall in H1. specialize (H1 _ I). rewrite feqb_refl in H1; [discriminate|]. apply N. simpl. auto.
  - apply IH. split; auto. intros; apply N; simpl; auto.
Qed.
Lemma best_max_ok : forall b, b <> [] -> (forall e, In e b -> isnan (fst e) = false) ->
  (exists e, In e b /\ fst e = best_max b) /\ forall e, In e b -> fleb (fst e) (best_max b) = true.
Proof.
  intros [|[k pd] b] NE N; [congruence|]. clear NE. unfold best_max. revert k pd N. induction b as [|[x q] b IH]; intros k pd N; cbn [fold_left fst].
  - split; [exists (k, pd); simpl; auto|]. intros e [<-|[]]. simpl. apply fleb_refl. apply (N (k, pd)). simpl. auto.
  - assert (NK : isnan k = false) by (apply (N (k, pd)); simpl; auto). assert (NX : isnan x = false) by (apply (N (x, q)); simpl; auto).
    destruct (fltb k x) eqn:E.
    + destruct (IH x q) as [[e [A B]] C]; [intros e I; apply N; simpl in *; tauto|]. split; [exists e; split; [simpl in *; tauto|auto]|].
      intros e' [<-|I]; [|auto]. simpl. eapply fleb_trans; [apply fltb_fleb; exact E|]. apply (C (x, q)). simpl. auto.
    + destruct (IH k pd) as [[e [A B]] C]; [intros e I; apply N; simpl in *; tauto|]. split; [exists e; split; [simpl in *; tauto|auto]|].
      intros e' [<-|[<-|I]]; [apply (C (k, pd)); simpl; auto| |apply C; simpl; auto]. simpl. apply fleb_trans with k; [|apply (C (k, pd)); simpl; auto].
      destruct (fleb_total x k NX NK) as [T|T]; auto. congruence.
Qed.
Lemma best_set_new : forall b s pd, (forall e, In e b -> feqb (fst e) s = false) -> best_set b s pd = b ++ [(s, pd)].
Proof.
  induction b as [|[k v] b IH]; intros s pd H; simpl; auto. assert (E := H (k, v) (or_introl eq_refl)). simpl in E. rewrite E, IH; auto. intros; apply H; simpl; auto.
Qed.
Lemma dist_incl : forall b d, distinct_SSE d -> incl b d -> NoDup b -> distinct_SSE b.
Proof.
  intros b d D I ND. split; [intros e H; apply D; auto|]. induction b as [|x b IH]; constructor; inversion ND; subst.
  - rewrite Forall_forall. intros y Y. destruct (dist_pair d x y D) as [->|E]; auto; [apply I; simpl; auto|apply I; simpl; auto|tauto].
  - apply IH; auto. intros z Z. apply I. simpl. auto.
Qed.
Lemma filter_le : forall {A} (f : A -> bool) l, length (filter f l) <= length l.
Proof. intros A f. induction l; simpl; auto. destruct (f a); simpl; lia. Qed.
Lemma del_length : forall b m, NoDup b -> distinct_SSE b -> In m b -> Datatypes.S (length (best_del b (fst m))) = length b.
Proof.
  unfold best_del. induction b as [|x b IH]; intros m ND D I; [destruct I|]. inversion ND; subst. assert (D' : distinct_SSE b) by (eapply dist_incl; eauto; intros z Z; simpl; auto). simpl. destruct I as [->|I].
  - rewrite feqb_refl by (apply D; simpl; auto). simpl. f_equal.
    assert (E : forall l, incl l b -> filter (fun y : entry => negb (feqb (fst y) (fst m))) l = l); [|now rewrite E by apply incl_refl].
    induction l as [|y l IHl]; intros J; simpl; auto. destruct (dist_pair (m :: b) y m D) as [->|E]; [apply in_cons, J; simpl; auto|simpl; auto|exfalso; apply H1, J; simpl; auto|]. rewrite E. simpl. f_equal. apply IHl. intros z Z. apply J. simpl. auto.
  - destruct (dist_pair (x :: b) x m D) as [->|E]; [simpl; auto|simpl; auto|tauto|]. rewrite E. simpl. f_equal. auto.
Qed.
Lemma mem_dec : forall d b e, distinct_SSE d -> incl b d -> In e d -> In e b \/ ~ In e b.
Proof.
  intros d b e D I E. destruct (existsb (fun x => feqb (fst x) (fst e)) b) eqn:X.
  - apply existsb_exists in X as (x & A & B). destruct (dist_pair d x e D) as [->|Y]; auto. congruence.
  - right. intros J. assert (existsb (fun x => feqb (fst x) (fst e)) b = true); [|congruence]. apply existsb_exists. exists e. split; auto. apply feqb_refl. apply D; auto.
Qed.
Lemma lt_of_le : forall x y, fleb x y = true -> feqb x y = false -> fltb x y = true.
Proof.
  intros x y L E. apply fleb_spec in L as (A & B & C). apply fltb_spec. split; auto. split; auto. destruct C as [C|C]; auto. exfalso. assert (feqb x y = true) by (apply feqb_spec; auto). congruence.
Qed.
Lemma nodup_snoc : forall {A} (l : list A) x, NoDup l -> ~ In x l -> NoDup (l ++ [x]).
Proof. intros A l x H N. apply (Permutation_NoDup (l := x :: l)); [apply Permutation_cons_append|]. constructor; auto. Qed.
Lemma star_inv : forall N done best, 
  distinct_SSE done -> best = fold_left (star_step N) done [] ->
  incl best done /\ NoDup best /\ length best = Nat.min N (length done) /\
  (forall b e, In b best -> In e done -> ~ In e best -> fltb (fst b) (fst e) = true).
Proof.
  intros N done. induction done as [|[s pd] done IH] using rev_ind; intros best D E.
  - subst. simpl. split; [apply incl_refl|]. split; [constructor|]. split; [lia|]. intros b e [].
  - rewrite fold_left_app in E. simpl in E. set (b0 := fold_left (star_step N) done []) in *.
    assert (ND : NoDup (done ++ [(s, pd)])) by now apply dist_nodup.
    assert (D0 : distinct_SSE done).
    { apply (dist_incl done (done ++ [(s, pd)])); auto; [intros z Z; apply in_or_app; auto|]. apply NoDup_remove_1 in ND. now rewrite app_nil_r in ND. }
    destruct (IH b0 D0 eq_refl) as (I0 & N0 & L0 & C0). clear IH.
    assert (NI : ~ In (s, pd) done) by (apply NoDup_remove_2 in ND; now rewrite app_nil_r in ND).
    assert (NE : forall e, In e done -> feqb (fst e) s = false).
    { intros e I. destruct (dist_pair (done ++ [(s, pd)]) e (s, pd) D) as [->|X]; auto; [apply in_or_app; auto|apply in_or_app; simpl; auto|tauto]. }
    assert (NaN : forall e, In e (done ++ [(s, pd)]) -> isnan (fst e) = false) by apply D. assert (NS : isnan s = false) by (apply (NaN (s, pd)), in_or_app; simpl; auto).
    rewrite app_length. simpl length. destruct (Nat.ltb_spec (length b0) N) as [LT|GE].
    + rewrite best_set_new in E by auto. subst best. assert (Full : incl done b0) by (apply NoDup_length_incl; auto; lia). split; [|split; [|split]].
      * intros z Z. apply in_app_or in Z as [Z|Z]; apply in_or_app; auto.
      * apply nodup_snoc; auto.
      * unfold entry in *. rewrite app_length. simpl. lia.
      * intros b e B Ein Eout. exfalso. apply Eout. apply in_app_or in Ein as [Z|Z]; apply in_or_app; auto.
    + assert (LN : length b0 = N) by lia. destruct (fltb s (best_max b0)) eqn:LT.
      * assert (NE0 : b0 <> []). { intros Z. rewrite Z in LT. simpl in LT. apply fltb_nan in LT as [_ LT]. discriminate. }
        destruct (best_max_ok b0 NE0) as [[m [M1 M2]] M3]; [intros e I; apply D0; auto|].
        assert (Db : distinct_SSE b0) by (eapply dist_incl; eauto).
        assert (Del : forall e, In e (best_del b0 (best_max b0)) <-> In e b0 /\ e <> m).
        { intros e. unfold best_del. rewrite filter_In. split; intros [A B]; split; auto.
          - intros ->. rewrite M2, feqb_refl in B; [discriminate|]. rewrite <- M2. apply Db; auto.
          - destruct (dist_pair b0 e m Db A M1) as [|X]; [congruence|]. now rewrite <- M2, X. }
        rewrite best_set_new in E by (intros e I; apply Del in I as [I _]; auto). subst best. split; [|split; [|split]].
        -- intros z Z. apply in_app_or in Z as [Z|Z]; apply in_or_app; auto. apply Del in Z as [Z _]. auto.
        -- apply nodup_snoc; [unfold best_del; now apply NoDup_filter|]. intros Z. apply Del in Z as [Z _]. apply NI. auto.
        -- assert (X := del_length b0 m N0 Db M1). rewrite M2 in X. unfold entry in *. rewrite app_length. simpl. lia.
        -- intros b e B Ein Eout. apply in_app_or in Ein as [Ein|[<-|[]]]; [|exfalso; apply Eout, in_or_app; simpl; auto].
           destruct (mem_dec done b0 e D0 I0 Ein) as [Z|Z].
           ++ assert (e = m). { destruct (dist_pair b0 e m Db Z M1) as [|X]; auto. exfalso. apply Eout, in_or_app. left. apply Del. split; auto. intros ->. rewrite feqb_refl in X; [discriminate|]. apply Db; auto. }
              subst e. apply in_app_or in B as [B|[<-|[]]]; [|now rewrite M2]. apply Del in B as [B BM]. destruct (dist_pair b0 b m Db B M1) as [|X]; [congruence|].
              assert (Y := M3 _ B). rewrite <- M2 in Y. now apply lt_of_le.
           ++ apply in_app_or in B as [B|[<-|[]]]; [apply C0; auto; now apply Del in B|]. apply fltb_trans with (best_max b0); auto. rewrite <- M2. now apply C0.
      * subst best. split; [|split; [|split]]; auto.
        -- intros z Z. apply in_or_app. auto.
        -- lia.
        -- intros b e B Ein Eout. apply in_app_or in Ein as [Ein|[<-|[]]]; [now apply C0|]. simpl. assert (NE0 : b0 <> []) by (intros Z; rewrite Z in B; destruct B).
           destruct (best_max_ok b0 NE0) as [[m [M1 M2]] M3]; [intros e I; apply D0; auto|]. apply lt_of_le; [|apply NE; auto].
           apply fleb_trans with (best_max b0); auto. rewrite <- M2 in LT |- *. destruct (fleb_total (fst m) s) as [T|T]; auto; [apply D0; auto|]. congruence.
Qed.

Lemma count_ge : forall {A} (f : A -> bool) l b, NoDup b -> incl b l -> (forall x, In x b -> f x = true) -> length b <= length (filter f l).
Proof. intros A f l b ND I F. apply NoDup_incl_length; auto. intros x X. apply filter_In. auto. Qed.
Lemma star_rank : forall N es e, distinct_SSE es -> In e es -> (In e (fold_left (star_step N) es []) <-> better es (fst e) < N).
Proof.
  intros N es e D I. destruct (star_inv N es _ D eq_refl) as (I0 & N0 & L0 & C0). set (b := fold_left (star_step N) es []) in *. assert (ND := dist_nodup es D). unfold better. split.
  - intros B. assert (X : Datatypes.S (length (filter (fun x => fltb (fst x) (fst e)) es)) <= length b); [|lia].
    assert (In_b : incl (e :: filter (fun x => fltb (fst x) (fst e)) es) b).
    { intros z [<-|Z]; auto. apply filter_In in Z as [Z1 Z2]. destruct (mem_dec es b z D I0 Z1) as [|Y]; auto. apply fltb_asym in Z2. rewrite (C0 e z) in Z2; auto. discriminate. }
    apply NoDup_incl_length in In_b; auto. constructor; [|now apply NoDup_filter]. intros Z. apply filter_In in Z as [_ Z]. rewrite fltb_irrefl in Z. discriminate.
  - intros L. destruct (mem_dec es b e D I0 I) as [|Y]; auto. exfalso. assert (G : length b <= length (filter (fun x => fltb (fst x) (fst e)) es)) by (apply count_ge; auto).
    assert (Z : incl es b) by (apply NoDup_length_incl; auto; unfold entry in *; lia). auto.
Qed.
Definition starred (pd : pdict) (n : string) : Prop := exists v k, In (n, (v, k)) pd /\ 0 < k.
Lemma smem_In : forall n l, smem n l = true <-> In n l.
Proof. intros n l. unfold smem. rewrite existsb_exists. split; [intros (x & A & B); apply String.eqb_eq in B; now subst|intros H; exists n; split; auto; apply String.eqb_refl]. Qed.
Lemma add_starred_ok : forall pd names, NoDup names -> NoDup (add_starred names pd) /\ forall n, In n (add_starred names pd) <-> In n names \/ starred pd n.
Proof.
  unfold add_starred. induction pd as [|[k [v st]] pd IH]; intros names ND; cbn [fold_left fst snd].
  - split; auto. intros n. split; auto. intros [H|(v & k & [] & _)]; auto.
  - set (c := (0 <? st) && negb (smem k names)). assert (ND' : NoDup (if c then names ++ [k] else names)).
    { destruct c eqn:E; auto. apply nodup_snoc; auto. apply andb_true_iff in E as [_ E]. intros I. apply smem_In in I. rewrite I in E. discriminate. }
    destruct (IH _ ND') as [A B]. split; auto. intros n. rewrite B. clear A B IH. unfold starred. split.
    + intros [H|(v' & k' & H & P)]; [|right; exists v', k'; simpl; auto]. destruct c eqn:E; auto. apply in_app_or in H as [H|[<-|[]]]; auto. right. exists v, st. split; [simpl; auto|]. apply andb_true_iff in E as [E _]. now apply Nat.ltb_lt.
    + intros [H|(v' & k' & [H|H] & P)].
      * left. destruct c; auto. apply in_or_app. auto.
      * injection H as <- <- <-. left. destruct c eqn:E; [apply in_or_app; simpl; auto|]. unfold c in E. apply Nat.ltb_lt in P. rewrite P in E. simpl in E. apply negb_false_iff in E. now apply smem_In.
      * right. eauto.
Qed.
Lemma starred_fold : forall best names, NoDup names -> let r := fold_left (fun names (e : entry) => add_starred names (snd e)) best names in
  NoDup r /\ forall n, In n r <-> In n names \/ exists e, In e best /\ starred (snd e) n.
Proof.
  induction best as [|e best IH]; intros names ND; cbn [fold_left].
  - split; auto. intros n. split; auto. intros [H|(e & [] & _)]; auto.
  - destruct (add_starred_ok (snd e) names ND) as [A B]. destruct (IH _ A) as [C D]. split; auto. intros n. rewrite D, B. split.
    + intros [[H|H]|(x & X & Y)]; auto; right; [exists e|exists x]; simpl; auto.
    + intros [H|(x & [<-|X] & Y)]; auto. right. eauto.
Qed.
