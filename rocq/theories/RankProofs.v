(** Proofs about ranking and sampling *)
From Coq Require Import List Bool Arith ZArith Lia Permutation Sorted.
From Verif Require Import Flt FltMore Py RankModel SampFloat.
Import ListNotations.

(** numpy's sort order: NaN is last *)
Definition ford (x y : f64) : Prop := isnan y = true \/ fleb x y = true.
(** K lists the positions of v in sorted order *)
Definition sorts (K : list nat) (v : list f64) : Prop :=
  Permutation K (seq 0 (length v)) /\
  forall i j a b x y, i < j -> nth_error K i = Some a -> nth_error K j = Some b ->
    nth_error v a = Some x -> nth_error v b = Some y -> ford x y.
Definition is_argsort (f : list f64 -> list nat) : Prop := forall v, sorts (f v) v.

Lemma ford_refl : forall x, ford x x.
Proof. intros x. unfold ford. destruct (isnan x) eqn:E; auto. right. now apply fleb_refl. Qed.
Lemma fbefore_total : forall x y, fbefore x y = false -> ford y x.
Proof.
  intros x y. unfold fbefore, ford. destruct (isnan x) eqn:E; auto. destruct (isnan y) eqn:E'; [discriminate|]. simpl. intros H. right.
  destruct (fleb_total y x E' E) as [T|T]; auto. apply fltb_fleb in T. congruence.
Qed.
Lemma fbefore_ford : forall x y, fbefore x y = true -> ford x y.
Proof.
  intros x y. unfold fbefore, ford. destruct (isnan x) eqn:E; auto. destruct (isnan y); simpl; auto.
Qed.
Lemma ford_trans : forall x y z, ford x y -> ford y z -> ford x z.
Proof.
  intros x y z [H|H] [H'|H']; unfold ford; auto.
  - apply fleb_nan in H'. destruct H'. congruence.
  - right. eapply fleb_trans; eauto.
Qed.

(** the instance *)
Section Ins.
Variable v : nat -> f64.
Let R (a b : nat) := ford (v a) (v b).
Lemma ains_perm : forall k l, Permutation (ains v k l) (k :: l).
Proof. intros k. induction l as [|h t IH]; simpl; auto. destruct (fbefore _ _); auto. rewrite IH. apply perm_swap. Qed.
Lemma ains_sorted : forall k l, StronglySorted R l -> StronglySorted R (ains v k l).
Proof.
  intros k. induction l as [|h t IH]; simpl; intros SS; [repeat constructor|].
  inversion SS as [|? ? S1 F]; subst. destruct (fbefore (v k) (v h)) eqn:E.
  - constructor; auto. constructor; [now apply fbefore_ford|]. rewrite Forall_forall in *. intros x Hx.
    eapply ford_trans; [now apply fbefore_ford; eauto|]. now apply F.
  - constructor; [now apply IH|]. rewrite Forall_forall in *. intros x Hx. apply (Permutation_in _ (ains_perm k t)) in Hx.
    destruct Hx as [<-|Hx]; [now apply fbefore_total|now apply F].
Qed.
End Ins.
Lemma ss_nth : forall {A} (R : A -> A -> Prop) l i j a b, StronglySorted R l -> i < j ->
  nth_error l i = Some a -> nth_error l j = Some b -> R a b.
Proof.
  induction l as [|h t IH]; intros [|i] [|j] a b SS Hij Ha Hb; simpl in *; try lia; try discriminate; inversion SS; subst.
  - injection Ha as <-. rewrite Forall_forall in *. match goal with H : forall _, In _ _ -> _ |- _ => apply H end. eapply nth_error_In; eauto.
  - apply (IH i j a b); auto. lia.
Qed.
Lemma stable_is_argsort : is_argsort stable_argsort.
Proof.
  intros v. unfold stable_argsort. set (w := fun k => nth k v fnan).
  assert (P : forall l, Permutation (fold_right (ains w) [] l) l).
  { induction l; simpl; auto. rewrite ains_perm. now constructor. }
  assert (SS : forall l, StronglySorted (fun a b => ford (w a) (w b)) (fold_right (ains w) [] l)).
  { induction l; simpl; [constructor|]. now apply ains_sorted. }
  split; [apply P|]. intros i j a b x y Hij Ha Hb Hx Hy.
  assert (X := ss_nth _ _ _ _ _ _ (SS _) Hij Ha Hb). simpl in X. unfold w in X.
  rewrite (nth_error_nth _ _ _ Hx), (nth_error_nth _ _ _ Hy) in X. exact X.
Qed.

(** consequences of [sorts] *)
Lemma sorts_len : forall K v, sorts K v -> length K = length v.
Proof. intros K v [P _]. rewrite (Permutation_length P). apply seq_length. Qed.
Lemma sorts_in : forall K v k, sorts K v -> (In k K <-> k < length v).
Proof.
  intros K v k [P _]. split; intros H.
  - apply (Permutation_in _ P) in H. apply in_seq in H. lia.
  - apply (Permutation_in _ (Permutation_sym P)). apply in_seq. lia.
Qed.
Lemma sorts_nodup : forall K v, sorts K v -> NoDup K.
Proof. intros K v [P _]. eapply Permutation_NoDup; [apply Permutation_sym; exact P|apply seq_NoDup]. Qed.
Lemma sorts_head : forall K v k t b x y, sorts K v -> K = k :: t -> nth_error v k = Some x -> nth_error v b = Some y -> ford x y.
Proof.
  intros K v k t b x y SS -> Hx Hy.
  assert (In b (k :: t)). { apply (sorts_in _ v); auto. apply nth_error_Some. congruence. }
  destruct H as [->|H]; [|apply In_nth_error in H; destruct H as [j Hj]].
  - replace y with x by congruence. apply ford_refl.
  - apply (proj2 SS 0 (S j) k b x y); auto. lia.
Qed.
Lemma last_nth : forall (l : list nat) d, l <> [] -> nth_error l (length l - 1) = Some (last l d).
Proof.
  induction l as [|a l IH]; intros d N; [easy|]. destruct l as [|b l]; auto.
  specialize (IH d ltac:(easy)). cbn [length] in *. replace (S (S (length l)) - 1) with (S (S (length l) - 1)) by lia. simpl. simpl in IH. exact IH.
Qed.
Lemma sorts_last : forall K v d b x y, sorts K v -> K <> [] -> nth_error v (last K d) = Some x -> nth_error v b = Some y -> ford y x.
Proof.
  intros K v d b x y SS N Hx Hy. assert (L := last_nth K d N).
  assert (In b K). { apply (sorts_in _ v); auto. apply nth_error_Some. congruence. }
  apply In_nth_error in H. destruct H as [j Hj].
  assert (j < length K) by (apply nth_error_Some; congruence).
  destruct (Nat.eq_dec j (length K - 1)) as [->|Nj].
  - replace y with x by congruence. apply ford_refl.
  - apply (proj2 SS j (length K - 1) b (last K d) y x); auto. lia.
Qed.

Lemma gather_spec : forall {A} (l : list A) K, (forall k, In k K -> k < length l) ->
  exists r, gather l K = Some r /\ map (@Some A) r = map (nth_error l) K.
Proof.
  intros A l. induction K as [|k K IH]; intros H; [exists []; auto|].
  destruct IH as (r & E & M). { intros; apply H; now right. }
  destruct (nth_error l k) as [x|] eqn:Ex.
  - exists (x :: r). simpl. rewrite Ex, E. split; auto. simpl. f_equal; auto.
  - apply nth_error_None in Ex. assert (k < length l) by (apply H; now left). lia.
Qed.
Lemma gather_length : forall {A} (l : list A) K r, gather l K = Some r -> length r = length K.
Proof.
  intros A l. induction K as [|k K IH]; simpl; intros r H; [now injection H as <-|].
  destruct (nth_error l k); [|discriminate]. destruct (gather l K); [|discriminate]. injection H as <-. simpl. f_equal. now apply IH.
Qed.
Lemma gather_nth : forall {A} (l : list A) K r j k, gather l K = Some r -> nth_error K j = Some k -> nth_error r j = nth_error l k.
Proof.
  intros A l. induction K as [|k0 K IH]; intros r [|j] k H Hk; simpl in *; try discriminate;
  destruct (nth_error l k0) eqn:E0; try discriminate; destruct (gather l K) eqn:E; try discriminate; injection H as <-; simpl.
  - injection Hk as <-. auto.
  - eapply IH; eauto.
Qed.
Lemma gather_nodup : forall (l : list nat) K r, NoDup l -> NoDup K -> gather l K = Some r -> NoDup r.
Proof.
  intros l K r Nl NK H. apply NoDup_nth_error. intros i j Hi E.
  rewrite (gather_length _ _ _ H) in Hi.
  destruct (nth_error K i) as [a|] eqn:Ea; [|apply nth_error_None in Ea; lia].
  rewrite (gather_nth _ _ _ _ _ H Ea) in E.
  destruct (nth_error K j) as [b|] eqn:Eb.
  - rewrite (gather_nth _ _ _ _ _ H Eb) in E. assert (a < length l).
    { destruct (nth_error r i) as [x|] eqn:Er; [|apply nth_error_None in Er; rewrite (gather_length _ _ _ H) in Er; lia].
      rewrite (gather_nth _ _ _ _ _ H Ea) in Er. apply nth_error_Some. congruence. }
    assert (a = b) by (apply (proj1 (NoDup_nth_error l)); auto). subst b.
    apply (proj1 (NoDup_nth_error K) NK i j); auto. congruence.
  - apply nth_error_None in Eb. assert (X : nth_error r j = None) by (apply nth_error_None; rewrite (gather_length _ _ _ H); lia).
    rewrite X in E. apply nth_error_None in E.
    assert (a < length l); [|lia].
    destruct (nth_error r i) as [x|] eqn:Er; [|apply nth_error_None in Er; rewrite (gather_length _ _ _ H) in Er; lia].
    rewrite (gather_nth _ _ _ _ _ H Ea) in Er. apply nth_error_Some. congruence.
Qed.
Lemma gather_in : forall (l : list nat) K r x, gather l K = Some r -> In x r -> In x l.
Proof.
  intros l K r x H Hx. apply In_nth_error in Hx. destruct Hx as [j Hj].
  destruct (nth_error K j) as [a|] eqn:Ea.
  - rewrite (gather_nth _ _ _ _ _ H Ea) in Hj. eapply nth_error_In; eauto.
  - apply nth_error_None in Ea. rewrite <- (gather_length _ _ _ H) in Ea. apply nth_error_None in Ea. congruence.
Qed.

Section R.
Variable argsort : list f64 -> list nat.
Hypothesis AS : is_argsort argsort.
Notation get_KS := (get_KS argsort).
Notation get_iSorted := (get_iSorted argsort).
Notation get_kBest := (get_kBest argsort).
Notation get_best := (get_best argsort).
Notation push := (push argsort).
Notation rstep := (rstep argsort).
Notation rrun := (rrun argsort).
Notation sample := (sample argsort).

(** the caches agree with the individuals *)
Definition RInv (s : rk) : Prop :=
  (forall K, cKS s = Some K -> sorts K (map (heap s) (iList s))) /\
  (forall l, cIS s = Some l -> exists K, cKS s = Some K /\ gather (iList s) K = Some l).

(** individuals whose SSE is set directly must not be in the population *)
Definition legal (s : rk) (o : rop) : Prop :=
  match o with RSSE id _ => ~ In id (iList s) | _ => True end.
Fixpoint legal_run (s : rk) (os : list rop) : Prop :=
  match os with [] => True | o :: os => legal s o /\ legal_run (rstep s o) os end.

Lemma RInv_fresh : forall h l, RInv (mkRk h l None None).
Proof. intros h l. split; simpl; congruence. Qed.

Lemma KS_ok : forall s, RInv s -> iList s <> [] -> exists K s', get_KS s = (s', Some K) /\
  sorts K (map (heap s) (iList s)) /\ RInv s' /\ heap s' = heap s /\ iList s' = iList s /\ cKS s' = Some K.
Proof.
  intros s [I1 I2] N. unfold RankModel.get_KS. remember (cKS s) as c eqn:E. symmetry in E. destruct c as [K|].
  - exists K, s. split; auto. split; [now apply I1|]. split; [|auto]. split; rewrite E; auto.
  - destruct (iList s) as [|i t] eqn:El; [easy|]. rewrite <- El.
    eexists _, _. split; [reflexivity|]. split; [apply AS|]. simpl. split; [|auto]. split; simpl.
    + intros K [= <-]. apply AS.
    + intros l Hl. destruct (I2 l Hl) as (K & X & _). discriminate.
Qed.
Lemma KS_empty : forall s, RInv s -> iList s = [] -> exists o, get_KS s = (s, o) /\ (o = None \/ o = Some []).
Proof.
  intros s [I1 I2] N. unfold RankModel.get_KS. rewrite N. destruct (cKS s) as [K|] eqn:E; [|eauto].
  exists (Some K). split; auto. right. specialize (I1 K eq_refl). apply sorts_len in I1. rewrite N in I1. destruct K; easy.
Qed.
Lemma sorts_range : forall s K k, sorts K (map (heap s) (iList s)) -> In k K -> k < length (iList s).
Proof. intros s K k H Hk. apply (sorts_in _ _ k H) in Hk. now rewrite map_length in Hk. Qed.
Lemma nonempty_dec : forall (s : rk), iList s = [] \/ iList s <> [].
Proof. intros s. destruct (iList s); [left|right]; easy. Qed.

Lemma iSorted_ok : forall s, RInv s -> iList s <> [] -> exists K l s', get_iSorted s = (s', Ok (Some l)) /\
  snd (get_KS s) = Some K /\ sorts K (map (heap s) (iList s)) /\ gather (iList s) K = Some l /\ RInv s' /\ heap s' = heap s /\ iList s' = iList s.
Proof.
  intros s I N. unfold RankModel.get_iSorted.
  assert (G : forall K, sorts K (map (heap s) (iList s)) -> exists l, gather (iList s) K = Some l).
  { intros K S. destruct (gather_spec (iList s) K) as (r & E & _); [|eauto]. intros k Hk. eapply sorts_range; eauto. }
  destruct (match cKS s with Some _ => match cIS s with Some _ => false | None => true end | None => true end) eqn:E.
  - destruct (KS_ok s I N) as (K & s' & E1 & S & I' & H1 & H2 & H3).
    destruct (iList s) as [|i t] eqn:El; [easy|]. rewrite <- El in *. rewrite E1.
    destruct (G K S) as [l Hl]. rewrite H2, Hl. exists K, l. eexists. split; [reflexivity|]. split; auto. split; auto. split; auto. simpl.
    split; [|auto]. split; simpl.
    + intros K' HK'. rewrite H3 in HK'. injection HK' as <-. rewrite H1. auto.
    + intros l' [= <-]. exists K. auto.
  - destruct (cKS s) as [K|] eqn:EK; [|easy]. destruct (cIS s) as [l|] eqn:EI; [|easy].
    destruct I as [I1 I2]. destruct (I2 l EI) as (K' & X & Y). rewrite EK in X. injection X as <-.
    exists K, l, s. split; auto. split; [unfold RankModel.get_KS; now rewrite EK|]. split; [now apply I1|]. split; auto. split; [|auto]. split; auto.
Qed.
Lemma kBest_ok : forall s, RInv s -> iList s <> [] -> exists k s' i, get_kBest s = (s', Ok (Some k)) /\
  nth_error (iList s) k = Some i /\ (forall j, In j (iList s) -> ford (heap s i) (heap s j)) /\
  RInv s' /\ heap s' = heap s /\ iList s' = iList s.
Proof.
  intros s I N. unfold RankModel.get_kBest. destruct (KS_ok s I N) as (K & s' & E & S & I' & H1 & H2 & H3). rewrite E.
  destruct K as [|k t]. { apply sorts_len in S. rewrite map_length in S. destruct (iList s); easy. }
  assert (k < length (iList s)). { eapply sorts_range; eauto. now left. }
  destruct (nth_error (iList s) k) as [i|] eqn:Ei; [|apply nth_error_None in Ei; lia].
  exists k, s', i. split; [auto|split; [auto|split; [|split; [exact I'|auto]]]]. intros j Hj. apply In_nth_error in Hj. destruct Hj as [b Hb].
  eapply (sorts_head _ _ k t b); eauto.
  - now apply map_nth_error.
  - now apply map_nth_error.
Qed.
Lemma best_ok : forall s, RInv s -> iList s <> [] -> exists s' i, get_best s = (s', Ok (Some i)) /\
  In i (iList s) /\ (forall j, In j (iList s) -> ford (heap s i) (heap s j)) /\
  RInv s' /\ heap s' = heap s /\ iList s' = iList s.
Proof.
  intros s I N. unfold RankModel.get_best. destruct (kBest_ok s I N) as (k & s' & i & E & Hk & B & I' & H1 & H2).
  destruct (iList s) as [|a t] eqn:El; [easy|]. rewrite E, H2, Hk. exists s', i. split; [auto|split; [eapply nth_error_In; eauto|split; [exact B|split; [exact I'|auto]]]].
Qed.

Lemma del_KS_inv : forall s, RInv (del_KS s).
Proof. intros s. split; simpl; congruence. Qed.
Lemma set_item_inv : forall s k id, RInv s -> RInv (fst (set_item s k id)).
Proof. intros s k id I. unfold set_item. destruct (k <? _); simpl; auto. apply del_KS_inv. Qed.

Lemma push_ok : forall s id, RInv s -> iList s <> [] -> exists k i, push s id = (mkRk (heap s) (upd k id (iList s)) None None, None) /\
  nth_error (iList s) k = Some i /\ (forall j, In j (iList s) -> ford (heap s j) (heap s i)).
Proof.
  intros s id I N. unfold RankModel.push. destruct (KS_ok s I N) as (K & s' & E & S & I' & H1 & H2 & H3). rewrite E.
  assert (NK : K <> []). { intros ->. apply sorts_len in S. rewrite map_length in S. destruct (iList s); easy. }
  assert (Hl : last K 0 < length (iList s)).
  { eapply sorts_range; eauto. eapply nth_error_In. apply last_nth; auto. }
  destruct (nth_error (iList s) (last K 0)) as [i|] eqn:Ei; [|apply nth_error_None in Ei; lia].
  exists (last K 0), i. destruct K as [|a K]; [easy|]. remember (last (a :: K) 0) as kw.
  unfold set_item. rewrite H2. destruct (kw <? length (iList s)) eqn:El; [|apply Nat.ltb_ge in El; lia]. simpl. rewrite H1, ?H2.
  split; [reflexivity|]. split; auto. intros j Hj. apply In_nth_error in Hj. destruct Hj as [b Hb].
  apply (sorts_last _ _ 0 b _ _ S NK); [|now apply map_nth_error]. rewrite <- Heqkw. now apply map_nth_error.
Qed.
Lemma push_empty : forall s id, RInv s -> iList s = [] -> exists e, push s id = (s, Some e).
Proof.
  intros s id I N. unfold RankModel.push. destruct (KS_empty s I N) as (o & E & [->| ->]); rewrite E; eauto.
Qed.

Lemma rstep_inv : forall s o, RInv s -> legal s o -> RInv (rstep s o).
Proof.
  intros s o I L. destruct o as [k id|id|id|id x| | | |]; cbn [RankModel.rstep].
  - now apply set_item_inv.
  - destruct (nonempty_dec s) as [N|N].
    + destruct (push_empty s id I N) as (e & E). now rewrite E.
    + destruct (push_ok s id I N) as (k & i & E & _). rewrite E. apply RInv_fresh.
  - apply del_KS_inv.
  - unfold set_sse. simpl in L. assert (M : map (setheap (heap s) id x) (iList s) = map (heap s) (iList s)).
    { apply map_ext_in. intros a Ha. unfold setheap. destruct (Nat.eqb a id) eqn:E; auto. apply Nat.eqb_eq in E. subst. easy. }
    destruct I as [I1 I2]. split; simpl; [|auto]. intros K HK. rewrite M. auto.
  - destruct (nonempty_dec s) as [N|N].
    + destruct (KS_empty s I N) as (o & E & _). now rewrite E.
    + destruct (KS_ok s I N) as (K & s' & E & S & I' & _). now rewrite E.
  - destruct (nonempty_dec s) as [N|N].
    + unfold RankModel.get_iSorted. rewrite N. destruct (match cKS s with Some _ => _ | None => _ end); auto.
    + destruct (iSorted_ok s I N) as (K & l & s' & E & _ & _ & _ & I' & _). now rewrite E.
  - destruct (nonempty_dec s) as [N|N].
    + unfold RankModel.get_kBest. destruct (KS_empty s I N) as (o & E & [->| ->]); rewrite E; auto.
    + destruct (kBest_ok s I N) as (k & s' & i & E & _ & _ & I' & _). now rewrite E.
  - destruct (nonempty_dec s) as [N|N].
    + unfold RankModel.get_best. rewrite N. auto.
    + destruct (best_ok s I N) as (s' & i & E & _ & _ & I' & _). now rewrite E.
Qed.
Lemma rrun_inv : forall os s, RInv s -> legal_run s os -> RInv (rrun s os).
Proof.
  induction os as [|o os IH]; intros s I L; auto. destruct L as [L1 L2]. simpl. apply IH; auto. now apply rstep_inv.
Qed.

(** ** Sampling *)
Lemma memb_spec : forall k l, memb k l = true <-> In k l.
Proof. intros k l. unfold memb. rewrite existsb_exists. split; [intros (x & H & E); apply Nat.eqb_eq in E; now subst|exists k; split; auto; apply Nat.eqb_refl]. Qed.
Lemma NoDup_snoc : forall (l : list nat) a, NoDup l -> ~ In a l -> NoDup (l ++ [a]).
Proof.
  intros l a ND NI. apply (Permutation_NoDup (l := a :: l)); [apply Permutation_cons_append|now constructor].
Qed.
Lemma sample_loop_ok : forall K N rb ds acc l, NoDup acc -> (forall k, In k acc -> In k K) -> length acc <= N ->
  (forall k u1 u2, ps_call K rb u1 u2 = Ok k -> In k K) ->
  sample_loop K N rb ds acc = SOk l -> NoDup l /\ (forall k, In k l -> In k K) /\ length l = N.
Proof.
  intros K N rb. induction ds as [|[u1 u2] ds IH]; intros acc l ND IN LE PS; simpl; destruct (N <=? length acc) eqn:E;
  try (intros [= <-]; apply Nat.leb_le in E; repeat split; auto; lia); try discriminate.
  apply Nat.leb_gt in E. destruct (ps_call K rb u1 u2) as [k|e] eqn:Ec; [|discriminate]. destruct (memb k acc) eqn:Em; [now apply IH|].
  apply IH; auto.
  - apply NoDup_snoc; auto. intros Hx. apply memb_spec in Hx. congruence.
  - intros x Hx. apply in_app_or in Hx. destruct Hx as [Hx|[<-|[]]]; auto. eapply PS; eauto.
  - rewrite app_length. simpl. lia.
Qed.
Lemma ps_call_in : forall K rb u1 u2 k, ps_call K rb u1 u2 = Ok k -> In k K.
Proof.
  intros K rb u1 u2 k. unfold ps_call, bind. destruct (py_int _) as [z|e]; [|discriminate]. unfold py_index.
  destruct (_ <? 0)%Z; [discriminate|]. destruct (nth_error _ _) eqn:E; [|discriminate]. intros [= <-]. eapply nth_error_In; eauto.
Qed.


(** random.sample's contract *)
Definition sampler (pick : nat -> nat -> list nat) : Prop :=
  forall n N, N <= n -> length (pick n N) = N /\ NoDup (pick n N) /\ forall k, In k (pick n N) -> k < n.
(** the accepted settings of randomBase *)
Definition rbase_ok (rb : rbase) : Prop :=
  match rb with RBool _ => True | RFloat x => feqb x fzero = true \/ feqb x fone = true \/ rb_ok x end.
(** those that mean "best", "uniform" *)
Definition rb_best (rb : rbase) : Prop := match rb with RBool b => b = false | RFloat x => feqb x fzero = true end.
Definition rb_unif (rb : rbase) : Prop := match rb with RBool b => b = true | RFloat x => feqb x fone = true end.

Definition avail (KS exclude : list nat) : list nat := filter (fun k => negb (memb k exclude)) KS.
Lemma avail_in : forall KS ex k, In k (avail KS ex) <-> In k KS /\ ~ In k ex.
Proof.
  intros KS ex k. unfold avail. rewrite filter_In. rewrite negb_true_iff. split; intros [A B]; split; auto.
  - intros C. apply memb_spec in C. congruence.
  - destruct (memb k ex) eqn:E; auto. now apply memb_spec in E.
Qed.
Lemma filter_len : forall {A} (f : A -> bool) l, length (filter f l) + length (filter (fun x => negb (f x)) l) = length l.
Proof. intros A f. induction l as [|a l IH]; simpl; auto. destruct (f a); simpl; lia. Qed.
Lemma avail_length : forall KS ex, NoDup KS -> NoDup ex -> (forall k, In k ex -> In k KS) -> length (avail KS ex) + length ex = length KS.
Proof.
  intros KS ex N1 N2 Sub. unfold avail.
  rewrite <- (Permutation_length (l := filter (fun k => memb k ex) KS) (l' := ex)).
  - rewrite Nat.add_comm. apply (filter_len (fun k => memb k ex)).
  - apply NoDup_Permutation; auto. { now apply NoDup_filter. }
    intros x. rewrite filter_In, memb_spec. split; [tauto|auto].
Qed.
Lemma avail_nodup : forall KS ex, NoDup KS -> NoDup (avail KS ex).
Proof. intros. now apply NoDup_filter. Qed.

Lemma filter_first : forall {A} (f : A -> bool) l h t, filter f l = h :: t ->
  exists i, nth_error l i = Some h /\ forall j x, nth_error l j = Some x -> f x = true -> i <= j.
Proof.
  intros A f. induction l as [|a l IH]; intros h t; simpl; [discriminate|]. destruct (f a) eqn:E.
  - intros [= <- _]. exists 0. split; auto. intros. lia.
  - intros H. destruct (IH h t H) as (i & Hi & M). exists (S i). split; auto. intros [|j] x Hj Fx.
    + injection Hj as <-. congruence.
    + simpl in Hj. specialize (M j x Hj Fx). lia.
Qed.
Lemma avail_head : forall s KS ex k t, sorts KS (map (heap s) (iList s)) -> avail KS ex = k :: t ->
  k < length (iList s) /\ ~ In k ex /\
  forall j i i', j < length (iList s) -> ~ In j ex -> nth_error (iList s) k = Some i -> nth_error (iList s) j = Some i' -> ford (heap s i) (heap s i').
Proof.
  intros s KS ex k t SS E. assert (In k (avail KS ex)) by (rewrite E; now left). apply avail_in in H. destruct H as [H1 H2].
  split; [eapply sorts_range; eauto|]. split; auto. intros j i i' Hj Nj Hi Hi'.
  destruct (filter_first _ _ _ _ E) as (p & Hp & M).
  assert (In j KS) by (apply (sorts_in _ _ j SS); now rewrite map_length). apply In_nth_error in H. destruct H as [q Hq].
  assert (p <= q). { apply (M q j); auto. apply negb_true_iff. destruct (memb j ex) eqn:Em; auto. now apply memb_spec in Em. }
  destruct (Nat.eq_dec p q) as [->|Npq].
  - assert (k = j) by congruence. subst. replace i' with i by congruence. apply ford_refl.
  - eapply (proj2 SS p q k j); auto; [lia| |]; now apply map_nth_error.
Qed.

Definition sample_result (KS ex : list nat) (N : nat) (rb : rbase) (pick : nat -> nat -> list nat) (ds : list (f64 * f64)) : sres :=
  let K := avail KS ex in
  match rb with
  | RBool b =>
    if b then if length K <? N then SRaise ValueError else match gather K (pick (length K) N) with Some l => SOk l | None => SRaise IndexError end
    else if 1 <? N then SRaise ValueError else match K with [] => SRaise IndexError | k :: _ => SOk [k] end
  | RFloat x =>
    if feqb x fzero then if 1 <? N then SRaise ValueError else match K with [] => SRaise IndexError | k :: _ => SOk [k] end
    else if feqb x fone then if length K <? N then SRaise ValueError else match gather K (pick (length K) N) with Some l => SOk l | None => SRaise IndexError end
    else if fltb fone x then SRaise ValueError else sample_loop K N x ds []
  end.
Lemma sample_eq : forall s N ex rb pick ds, RInv s -> iList s <> [] ->
  exists KS s', sorts KS (map (heap s) (iList s)) /\ RInv s' /\ heap s' = heap s /\ iList s' = iList s /\ cKS s' = Some KS /\
  sample s N ex rb pick ds = (s', sample_result KS ex N rb pick ds).
Proof.
  intros s N ex rb pick ds I Ne. destruct (KS_ok s I Ne) as (KS & s' & E & SS & I' & H1 & H2 & H3).
  exists KS, s'. repeat (split; [assumption|]). unfold RankModel.sample. rewrite E. unfold sample_result. fold (avail KS ex).
  destruct rb as [[|]|x]; reflexivity.
Qed.

Lemma sample_unif_ok : forall KS ex N rb pick ds, NoDup KS -> rb_unif rb -> ~ rb_best rb -> sampler pick ->
  N <= length (avail KS ex) ->
  exists l, sample_result KS ex N rb pick ds = SOk l /\ length l = N /\ NoDup l /\ forall k, In k l -> In k (avail KS ex).
Proof.
  intros KS ex N rb pick ds ND U B P L.
  destruct (P (length (avail KS ex)) N L) as (P1 & P2 & P3).
  destruct (gather_spec (avail KS ex) _ P3) as (l & G & _). exists l.
  assert (X : sample_result KS ex N rb pick ds = SOk l).
  { unfold sample_result. assert (L' : (length (avail KS ex) <? N) = false) by (apply Nat.ltb_ge; lia).
    destruct rb as [b|x]; unfold rb_unif, rb_best in *; subst; rewrite ?U, ?L', ?G; auto.
    destruct (feqb x fzero) eqn:E0; [easy|]. auto. }
  split; auto. split; [rewrite (gather_length _ _ _ G); auto|]. split.
  - exact (gather_nodup _ _ _ (avail_nodup KS ex ND) P2 G).
  - intros k Hk. eapply gather_in; eauto.
Qed.
Lemma sample_loop_noraise : forall K N rb ds acc e, rb_ok rb -> K <> [] -> (Z.of_nat (length K) < 2^53)%Z ->
  Forall (fun d => unit_draw (fst d) /\ unit_draw (snd d)) ds -> sample_loop K N rb ds acc <> SRaise e.
Proof.
  intros K N rb. induction ds as [|[u1 u2] ds IH]; intros acc e R NK L D; simpl; destruct (N <=? length acc); try discriminate.
  inversion D as [|? ? [D1 D2] D']; subst. destruct (ps_call_ok K rb u1 u2) as (k & E & _); auto. { destruct K; [easy|simpl; lia]. }
  rewrite E. destruct (memb k acc); now apply IH.
Qed.
Lemma sample_loop_one : forall K rb ds, rb_ok rb -> K <> [] -> (Z.of_nat (length K) < 2^53)%Z ->
  Forall (fun d => unit_draw (fst d) /\ unit_draw (snd d)) ds -> ds <> [] ->
  exists k, sample_loop K 1 rb ds [] = SOk [k] /\ In k K.
Proof.
  intros K rb [|[u1 u2] ds] R NK L D ND; [easy|]. inversion D as [|? ? [D1 D2] D']; subst.
  destruct (ps_call_ok K rb u1 u2) as (k & E & I); auto. { destruct K; [easy|simpl; lia]. }
  exists k. split; auto. simpl. rewrite E. simpl. destruct ds; reflexivity.
Qed.


Lemma set_item_length : forall s k id, length (iList (fst (set_item s k id))) = length (iList s).
Proof. intros s k id. unfold set_item. destruct (k <? _); simpl; auto. apply upd_length. Qed.
Lemma get_KS_iList : forall s, iList (fst (get_KS s)) = iList s.
Proof. intros s. unfold RankModel.get_KS. destruct (cKS s); auto. destruct (iList s) eqn:E; simpl; auto. Qed.
Lemma rstep_length : forall s o, length (iList (rstep s o)) = length (iList s).
Proof.
  intros s o. destruct o as [k id|id|id|id x| | | |]; cbn [RankModel.rstep]; auto.
  - apply set_item_length.
  - unfold RankModel.push. assert (G := get_KS_iList s). destruct (get_KS s) as [s' [[|a K]|]]; simpl in G; try (simpl; now rewrite G).
    assert (X := set_item_length s' (last (a :: K) 0) id). destruct (set_item s' (last (a :: K) 0) id) as [s2 [e|]]; simpl in *; congruence.
  - now rewrite get_KS_iList.
  - unfold RankModel.get_iSorted. destruct (match cKS s with Some _ => _ | None => _ end); auto.
    destruct (iList s) eqn:E; [now rewrite <- E|]. rewrite <- E. assert (G := get_KS_iList s). destruct (get_KS s) as [s' [K|]]; simpl in *; [|congruence].
    destruct (gather (iList s') K); simpl; congruence.
  - unfold RankModel.get_kBest. assert (G := get_KS_iList s). destruct (get_KS s) as [s' [[|]|]]; simpl in *; congruence.
  - unfold RankModel.get_best. destruct (iList s) eqn:E; [simpl; now rewrite E|]. rewrite <- E.
    unfold RankModel.get_kBest. assert (G := get_KS_iList s). destruct (get_KS s) as [s' [[|]|]]; simpl in *; try congruence.
    destruct (nth_error (iList s') n0); simpl; congruence.
Qed.
Lemma rrun_length : forall os s, length (iList (rrun s os)) = length (iList s).
Proof. induction os as [|o os IH]; intros s; auto. simpl. rewrite IH. apply rstep_length. Qed.

(** ** the indices of a challenge *)
Notation choose_quad := (choose_quad argsort).
Notation choose_base := (choose_base argsort).
Lemma rb_cases : forall rb, rbase_ok rb -> rb_best rb \/ (rb_unif rb /\ ~ rb_best rb) \/
  (exists x, rb = RFloat x /\ rb_ok x /\ ~ rb_best rb /\ ~ rb_unif rb).
Proof.
  intros [[|]|x]; unfold rb_best, rb_unif; simpl; auto.
  - intros _. right. left. split; congruence.
  - intros H. destruct (feqb x fzero) eqn:E0; auto. destruct (feqb x fone) eqn:E1; [right; left; split; congruence|].
    right. right. exists x. destruct H as [H|[H|H]]; try congruence. repeat split; auto; try apply H; congruence.
Qed.
Lemma sample_best : forall KS ex rb pick ds, rb_best rb ->
  sample_result KS ex 1 rb pick ds = match avail KS ex with [] => SRaise IndexError | k :: _ => SOk [k] end.
Proof. intros KS ex [b|x] pick ds; unfold rb_best, sample_result; [intros -> |intros E; rewrite E]; reflexivity. Qed.
Lemma rb_float_sample : forall KS ex N x pick ds, ~ rb_best (RFloat x) -> ~ rb_unif (RFloat x) -> fltb fone x = false ->
  sample_result KS ex N (RFloat x) pick ds = sample_loop (avail KS ex) N x ds [].
Proof.
  intros KS ex N x pick ds B U L. unfold sample_result, rb_best, rb_unif in *.
  destruct (feqb x fzero); [easy|]. destruct (feqb x fone); [easy|]. now rewrite L.
Qed.
Lemma rb_ok_le1 : forall x, rb_ok x -> fltb fone x = false.
Proof.
  intros x [_ R]. destruct (fltb fone x) eqn:E; auto. exfalso.
  assert (X := fltb_fleb_trans _ _ _ E R). revert X. vm_compute. discriminate.
Qed.
Lemma sample_one : forall s ex rb pick ds, RInv s -> iList s <> [] -> rbase_ok rb -> sampler pick ->
  Forall (fun d => unit_draw (fst d) /\ unit_draw (snd d)) ds -> ds <> [] ->
  (Z.of_nat (length (iList s)) < 2^53)%Z ->
  (exists k, k < length (iList s) /\ ~ In k ex) ->
  exists s' k, sample s 1 ex rb pick ds = (s', SOk [k]) /\ RInv s' /\ heap s' = heap s /\ iList s' = iList s /\
  k < length (iList s) /\ ~ In k ex /\
  (rb_best rb -> forall j i i', j < length (iList s) -> ~ In j ex -> nth_error (iList s) k = Some i -> nth_error (iList s) j = Some i' -> ford (heap s i) (heap s i')).
Proof.
  intros s ex rb pick ds I N R P D ND Lt (k0 & Hk0 & Nk0).
  destruct (sample_eq s 1 ex rb pick ds I N) as (KS & s' & SS & I' & H1 & H2 & H3 & E).
  assert (A0 : In k0 (avail KS ex)). { apply avail_in. split; auto. apply (sorts_in _ _ _ SS). now rewrite map_length. }
  assert (NA : avail KS ex <> []) by (intros X; rewrite X in A0; easy).
  assert (Q : exists k, sample_result KS ex 1 rb pick ds = SOk [k] /\ In k (avail KS ex)).
  { destruct (rb_cases rb R) as [B|[[U B]|(x & -> & X & B & U)]].
    - rewrite sample_best by auto. destruct (avail KS ex) as [|k t]; [easy|]. exists k. split; auto. now left.
    - destruct (sample_unif_ok KS ex 1 rb pick ds (sorts_nodup _ _ SS) U B P) as (l & E1 & E2 & E3 & E4).
      { destruct (avail KS ex); [easy|simpl; lia]. }
      destruct l as [|k [|]]; try discriminate. exists k. split; auto. apply E4. now left.
    - rewrite rb_float_sample by (auto using rb_ok_le1).
      apply sample_loop_one; auto.
      assert (length (avail KS ex) <= length KS) by (unfold avail; rewrite <- (filter_len (fun k => negb (memb k ex)) KS); lia).
      assert (length KS = length (iList s)) by (rewrite (sorts_len _ _ SS); apply map_length). lia. }
  destruct Q as (k & Ek & Ik). exists s', k. rewrite E, Ek.
  destruct (proj1 (avail_in _ _ _) Ik) as [Ik1 Ik2].
  split; [reflexivity|]. split; [assumption|]. split; [assumption|]. split; [assumption|]. split; [eapply sorts_range; eauto|]. split; auto.
  intros B. rewrite sample_best in Ek by auto. destruct (avail KS ex) as [|k' t] eqn:EA; [discriminate|]. injection Ek as ->.
  apply (proj2 (proj2 (avail_head s KS ex k t SS EA))).
Qed.
Lemma truthy_best : forall rb, (match rb with RBool b => b | RFloat x => negb (feqb x fzero) end) = false <-> rb_best rb.
Proof. intros [b|x]; unfold rb_best; [tauto|]. rewrite negb_false_iff. tauto. Qed.
Lemma choose_base_ok : forall s kt rb pick ds, RInv s -> 2 <= length (iList s) -> kt < length (iList s) -> rbase_ok rb -> sampler pick ->
  Forall (fun d => unit_draw (fst d) /\ unit_draw (snd d)) ds -> ds <> [] ->
  (Z.of_nat (length (iList s)) < 2^53)%Z ->
  exists s' k, choose_base s kt rb pick ds = (s', SOk [k]) /\ RInv s' /\ heap s' = heap s /\ iList s' = iList s /\
  k < length (iList s) /\ k <> kt /\
  (rb_best rb -> (forall j i i', j < length (iList s) -> j <> kt -> nth_error (iList s) k = Some i -> nth_error (iList s) j = Some i' -> ford (heap s i) (heap s i')) /\
     (forall kB, snd (get_kBest s) = Ok (Some kB) -> kB <> kt -> k = kB)).
Proof.
  intros s kt rb pick ds I L Hkt R P D ND Lt.
  assert (N : iList s <> []) by (intros X; rewrite X in L; simpl in L; lia).
  assert (Other : exists k, k < length (iList s) /\ ~ In k [kt]).
  { destruct kt; [exists 1|exists 0]; (split; [lia|intros [X|[]]; lia]). }
  unfold RankModel.choose_base.
  destruct (match rb with RBool b => b | RFloat x => negb (feqb x fzero) end) eqn:T.
  - destruct (sample_one s [kt] rb pick ds I N R P D ND Lt Other) as (s' & k & E & I' & H1 & H2 & H3 & H4 & H5).
    exists s', k. rewrite E. split; [reflexivity|]. split; [assumption|]. split; [assumption|]. split; [assumption|]. split; [assumption|].
    split; [intros ->; apply H4; now left|]. intros B. apply truthy_best in B. congruence.
  - apply truthy_best in T. destruct (kBest_ok s I N) as (kB & s1 & i & E & Hk & B & I1 & H1 & H2). rewrite E.
    destruct (Nat.eqb kt kB) eqn:Ek.
    + apply Nat.eqb_eq in Ek. subst kB. rewrite <- H2 in N, Lt, Other. 
      destruct (sample_one s1 [kt] rb pick ds I1 N R P D ND Lt Other) as (s' & k & E' & I' & H1' & H2' & H3 & H4 & H5).
      exists s', k. rewrite E'. split; [reflexivity|]. split; [assumption|]. rewrite H1', H2', H1, H2. rewrite H2 in H3.
      split; [reflexivity|]. split; [reflexivity|]. split; [assumption|].
      split; [intros ->; apply H4; now left|]. intros _. split.
      * intros j a a' Hj Nj Ha Ha'. rewrite H1, H2 in H5. apply (H5 T j a a'); auto. intros [X|[]]; congruence.
      * simpl. intros kB [= <-]. easy.
    + apply Nat.eqb_neq in Ek. exists s1, kB. split; [reflexivity|]. split; [assumption|]. split; [assumption|]. split; [assumption|].
      split; [apply nth_error_Some; congruence|]. split; auto. intros _. split.
      * intros j a a' Hj Nj Ha Ha'. assert (a = i) by congruence. subst a. apply B. eapply nth_error_In; eauto.
      * simpl. intros kB' [= <-]. auto.
Qed.
Lemma choose_quad_ok : forall s kt rb pick1 ds pick2, RInv s -> 4 <= length (iList s) -> kt < length (iList s) -> rbase_ok rb -> sampler pick1 -> sampler pick2 ->
  Forall (fun d => unit_draw (fst d) /\ unit_draw (snd d)) ds -> ds <> [] ->
  (Z.of_nat (length (iList s)) < 2^53)%Z ->
  exists s' kb k0 k1, choose_quad s kt rb pick1 ds pick2 = (s', SOk [kt; kb; k0; k1]) /\ RInv s' /\ heap s' = heap s /\ iList s' = iList s /\
  NoDup [kt; kb; k0; k1] /\ (forall k, In k [kt; kb; k0; k1] -> k < length (iList s)) /\
  (rb_best rb -> (forall j i i', j < length (iList s) -> j <> kt -> nth_error (iList s) kb = Some i -> nth_error (iList s) j = Some i' -> ford (heap s i) (heap s i')) /\
     (forall kB, snd (get_kBest s) = Ok (Some kB) -> kB <> kt -> kb = kB)).
Proof.
  intros s kt rb pick1 ds pick2 I L Hkt R P1 P2 D ND Lt.
  destruct (choose_base_ok s kt rb pick1 ds) as (s1 & kb & E & I1 & H1 & H2 & H3 & H4 & H5); auto; try lia.
  unfold RankModel.choose_quad. rewrite E.
  assert (N1 : iList s1 <> []) by (rewrite H2; intros X; rewrite X in L; simpl in L; lia).
  destruct (sample_eq s1 2 [kt; kb] (RBool true) pick2 [] I1 N1) as (KS & s2 & SS & I2 & J1 & J2 & J3 & E2). rewrite E2.
  assert (NDx : NoDup [kt; kb]). { constructor; [intros [X|[]]; congruence|]. constructor; [easy|constructor]. }
  assert (LK : length KS = length (iList s)) by (rewrite (sorts_len _ _ SS), map_length; congruence).
  assert (LA : length (avail KS [kt; kb]) + 2 = length KS).
  { apply (avail_length KS [kt; kb]); auto. - eapply sorts_nodup; eauto.
    - intros k [<-|[<-|[]]]; apply (sorts_in _ _ _ SS); rewrite map_length; congruence. }
  destruct (sample_unif_ok KS [kt; kb] 2 (RBool true) pick2 [] (sorts_nodup _ _ SS)) as (l & El & Ll & Nl & Il); auto; try lia.
  { simpl. reflexivity. } { unfold rb_best. discriminate. }
  rewrite El. destruct l as [|k0 [|k1 [|]]]; try discriminate. exists s2, kb, k0, k1.
  split; [reflexivity|]. split; [assumption|]. split; [congruence|]. split; [congruence|].
  assert (A0 := proj1 (avail_in _ _ _) (Il k0 (or_introl eq_refl))). assert (A1 := proj1 (avail_in _ _ _) (Il k1 (or_intror (or_introl eq_refl)))).
  split.
  - destruct A0 as [_ A0]. destruct A1 as [_ A1]. simpl in A0, A1. inversion Nl as [|? ? Na Nb]; subst. simpl in Na.
    repeat constructor; simpl; intuition congruence.
  - split; auto. intros k [<-|[<-|[<-|[<-|[]]]]]; auto; rewrite <- H2; eapply sorts_range; eauto; tauto.
Qed.

End R.
