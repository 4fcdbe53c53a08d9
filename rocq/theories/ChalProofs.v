(** Proofs about ChalModel.v *)
From Coq Require Import List Bool Arith Lia Sorted.
From Verif Require Import Py ChalModel.
Import ListNotations.

Section Proofs.
Context {I : Type}.
(** ** vocabulary *)
(** slots whose lock a challenge still has to release *)
Definition act (x : chal I) : list nat :=
  match cpc x with
  | PWait _ => quad_list (cq x)
  | PRelAll l => l
  | PRel _ _ _ _ l => kt (cq x) :: l
  | PEval _ _ | PHist | PRelT | PFail => [kt (cq x)]
  | PDone => []
  end.
Definition pend (x : chal I) : list nat := match cpc x with PWait p => p | _ => [] end.
Definition A (s : st I) (c k : nat) : Prop := exists x, nth_error (cs s) c = Some x /\ In k (act x).
Definition W (s : st I) (c k : nat) : Prop := exists x, nth_error (cs s) c = Some x /\ In k (pend x).
Definition U (s : st I) (c k : nat) : Prop := exists x, nth_error (cs s) c = Some x /\ In k (quad_list (cq x)).
Definition L (s : st I) (k : nat) : list nat := nth k (locks s) [].

Lemma L_nth : forall s k Q, nth_error (locks s) k = Some Q -> L s k = Q.
Proof. intros. unfold L. now apply nth_error_nth. Qed.
Lemma L_out : forall s k, length (locks s) <= k -> L s k = [].
Proof. intros. unfold L. now apply nth_overflow. Qed.

Lemma upd_nth_error : forall {X} k (x : X) l d,
  nth_error (upd k x l) d = if Nat.eqb d k then (match nth_error l k with Some _ => Some x | None => None end) else nth_error l d.
Proof.
  intros X k x l d. destruct (Nat.eqb_spec d k) as [->|N].
  - destruct (nth_error l k) eqn:E. 
    + apply upd_same. apply nth_error_Some. congruence.
    + apply nth_error_None in E. apply nth_error_None. now rewrite upd_length.
  - apply upd_other. congruence.
Qed.

(** ** effect of the primitive operations on A, W, L *)
Lemma set_pc_nth : forall c p (l : list (chal I)) d,
  nth_error (set_pc c p l) d = if Nat.eqb d c then option_map (fun x => mkChal (cq x) p) (nth_error l c) else nth_error l d.
Proof.
  intros c p l d. unfold set_pc. destruct (nth_error l c) as [x|] eqn:E; simpl.
  - rewrite upd_nth_error, E. reflexivity.
  - destruct (Nat.eqb_spec d c) as [->|]; auto.
Qed.
Lemma set_pc_length : forall c p (l : list (chal I)), length (set_pc c p l) = length l.
Proof. intros. unfold set_pc. destruct (nth_error l c); auto. apply upd_length. Qed.
Lemma set_pc_cq : forall c p (l : list (chal I)), map cq (set_pc c p l) = map cq l.
Proof.
  intros c p l. apply nth_error_ext. intros d. rewrite !nth_error_map, set_pc_nth.
  destruct (Nat.eqb_spec d c) as [->|]; auto. destruct (nth_error l c); auto.
Qed.

Lemma grant_cq : forall k (x : chal I), cq (grant k x) = cq x.
Proof. intros k [q p]; destruct p; auto. Qed.
Lemma grant_act : forall k x, act (grant k x) = act x.
Proof. intros k [q p]; destruct p; auto. Qed.
Lemma grant_pend : forall k x k', In k' (pend (grant k x)) <-> In k' (pend x) /\ k' <> k.
Proof.
  intros k [q p] k'; destruct p; unfold grant, pend; simpl; try tauto.
  rewrite filter_In. destruct (Nat.eqb_spec k' k); simpl; intuition congruence.
Qed.

Lemma release1_cs : forall k (s : st I) d,
  nth_error (cs (release1 k s)) d =
    match nth_error (cs s) d with
    | Some x => if match tl (L s k) with h :: _ => Nat.eqb d h | [] => false end then Some (grant k x) else Some x
    | None => None
    end.
Proof.
  intros k s d. unfold release1.
  assert (O : nth_error (locks s) k = None -> L s k = []) by (intros H; apply L_out; now apply nth_error_None).
  destruct (nth_error (locks s) k) as [[|h Q]|] eqn:E.
  - rewrite (L_nth _ _ _ E). simpl. now destruct (nth_error (cs s) d).
  - rewrite (L_nth _ _ _ E). simpl. destruct Q as [|h' Q]; simpl.
    + now destruct (nth_error (cs s) d).
    + destruct (nth_error (cs s) h') as [x|] eqn:E'.
      * rewrite upd_nth_error. destruct (Nat.eqb_spec d h') as [->|]; rewrite ?E'; auto. now destruct (nth_error (cs s) d).
      * destruct (Nat.eqb_spec d h') as [->|]; [now rewrite E'|]. now destruct (nth_error (cs s) d).
  - rewrite O by auto. simpl. now destruct (nth_error (cs s) d).
Qed.
Lemma release1_A : forall k s d k', A (release1 k s) d k' <-> A s d k'.
Proof.
  intros k s d k'. unfold A. setoid_rewrite release1_cs. destruct (nth_error (cs s) d) as [x|].
  - destruct (match tl (L s k) with h :: _ => d =? h | [] => false end).
    + split; intros (y & [= <-] & H); eexists; split; eauto; now rewrite grant_act in *.
    + tauto.
  - tauto.
Qed.
Lemma release1_U : forall k s d k', U (release1 k s) d k' <-> U s d k'.
Proof.
  intros k s d k'. unfold U. setoid_rewrite release1_cs. destruct (nth_error (cs s) d) as [x|].
  - destruct (match tl (L s k) with h :: _ => d =? h | [] => false end).
    + split; intros (y & [= <-] & H); eexists; split; eauto; now rewrite grant_cq in *.
    + tauto.
  - tauto.
Qed.
Lemma release1_W : forall k s d k', W (release1 k s) d k' <-> W s d k' /\ ~ (k' = k /\ hd_error (tl (L s k)) = Some d).
Proof.
  intros k s d k'. unfold W. setoid_rewrite release1_cs. destruct (nth_error (cs s) d) as [x|].
  - destruct (tl (L s k)) as [|h Q]; simpl.
    + intuition congruence.
    + destruct (Nat.eqb_spec d h) as [->|].
      * split; [intros (y & [= <-] & H)|intros [(y & [= <-] & H) N]].
        -- apply grant_pend in H. split; [eexists; split; eauto; tauto|]. tauto.
        -- eexists; split; eauto. apply grant_pend. split; auto.
      * split; [intros H; split; auto; intuition congruence|tauto].
  - split; [intros (y & [=] & _)|intros [(y & [=] & _) _]].
Qed.
Lemma release1_L : forall k s k', L (release1 k s) k' = if Nat.eqb k' k then tl (L s k) else L s k'.
Proof.
  intros k s k'. unfold release1.
  destruct (nth_error (locks s) k) as [[|h Q]|] eqn:E.
  - destruct (Nat.eqb_spec k' k) as [->|]; auto. now rewrite (L_nth _ _ _ E).
  - unfold L at 1. cbn [locks]. rewrite <- nth_default_eq. unfold nth_default. rewrite upd_nth_error, E.
    destruct (Nat.eqb_spec k' k) as [->|]; [now rewrite (L_nth _ _ _ E)|].
    unfold L. rewrite <- nth_default_eq. reflexivity.
  - destruct (Nat.eqb_spec k' k) as [->|]; auto. apply nth_error_None in E. now rewrite L_out.
Qed.
Lemma release1_misc : forall k (s : st I), pop (release1 k s) = pop s /\ run (release1 k s) = run s /\
  prun (release1 k s) = prun s /\ abq (release1 k s) = abq s /\ length (locks (release1 k s)) = length (locks s) /\
  length (cs (release1 k s)) = length (cs s) /\ map cq (cs (release1 k s)) = map cq (cs s).
Proof.
  intros k s. assert (C : map cq (cs (release1 k s)) = map cq (cs s)).
  { apply nth_error_ext. intros d. rewrite !nth_error_map, release1_cs. destruct (nth_error (cs s) d) as [x|]; auto.
    destruct (match tl (L s k) with h :: _ => d =? h | [] => false end); auto. simpl. now rewrite grant_cq. }
  assert (Ln : length (cs (release1 k s)) = length (cs s)) by (rewrite <- (map_length cq), C; apply map_length).
  unfold release1 in *. destruct (nth_error (locks s) k) as [[|h Q]|]; simpl in *; repeat split; auto. apply upd_length.
Qed.

Lemma goto_cs : forall (s : st I) c p d,
  nth_error (cs (goto s c p)) d = if Nat.eqb d c then option_map (fun x => mkChal (cq x) p) (nth_error (cs s) c) else nth_error (cs s) d.
Proof. intros. apply set_pc_nth. Qed.
Lemma goto_A : forall s c q p0 p d k, nth_error (cs s) c = Some (mkChal q p0) ->
  (A (goto s c p) d k <-> if Nat.eqb d c then In k (act (mkChal q p)) else A s d k).
Proof.
  intros s c q p0 p d k E. unfold A at 1. setoid_rewrite goto_cs. rewrite E. simpl.
  destruct (Nat.eqb_spec d c) as [->|].
  - split; [intros (x & [= <-] & H); exact H|]. intros H. eexists; split; eauto.
  - unfold A. tauto.
Qed.
Lemma goto_W : forall s c q p0 p d k, nth_error (cs s) c = Some (mkChal q p0) ->
  (W (goto s c p) d k <-> if Nat.eqb d c then In k (pend (mkChal q p)) else W s d k).
Proof.
  intros s c q p0 p d k E. unfold W at 1. setoid_rewrite goto_cs. rewrite E. simpl.
  destruct (Nat.eqb_spec d c) as [->|].
  - split; [intros (x & [= <-] & H); exact H|]. intros H. eexists; split; eauto.
  - unfold W. tauto.
Qed.
Lemma goto_U : forall s c p d k, U (goto s c p) d k <-> U s d k.
Proof.
  intros s c p d k. unfold U. setoid_rewrite goto_cs. destruct (Nat.eqb_spec d c) as [->|]; [|tauto].
  destruct (nth_error (cs s) c) as [x|]; simpl; [|tauto].
  split; intros (y & [= <-] & H); eexists; split; eauto.
Qed.
Lemma goto_L : forall (s : st I) c p k, L (goto s c p) k = L s k.
Proof. reflexivity. Qed.
Lemma goto_len : forall (s : st I) c p, length (cs (goto s c p)) = length (cs s).
Proof. intros. apply set_pc_length. Qed.

(** ** requests *)
#[local] Arguments enqueue : simpl never.
#[local] Arguments quad_list : simpl never.
#[local] Arguments filter : simpl never.
Lemma enqueue_len : forall c ks ls, length (enqueue c ks ls) = length ls.
Proof.
  intros c ks. unfold enqueue. induction ks as [|k ks IH]; intros ls; simpl; auto. rewrite IH.
  destruct (nth_error ls k); auto. apply upd_length.
Qed.
Lemma enqueue_nth : forall c ks ls k, NoDup ks ->
  nth_error (enqueue c ks ls) k = if in_dec Nat.eq_dec k ks then option_map (fun Q => Q ++ [c]) (nth_error ls k) else nth_error ls k.
Proof.
  intros c ks. unfold enqueue. induction ks as [|k0 ks IH]; intros ls k N; [reflexivity|].
  inversion N as [|? ? N1 N2]; subst. cbn [fold_left]. rewrite IH by auto.
  assert (E : nth_error (match nth_error ls k0 with Some Q => upd k0 (Q ++ [c]) ls | None => ls end) k =
              if Nat.eqb k k0 then option_map (fun Q => Q ++ [c]) (nth_error ls k) else nth_error ls k).
  { destruct (nth_error ls k0) as [Q|] eqn:E.
    - rewrite upd_nth_error, E. destruct (Nat.eqb_spec k k0) as [->|]; auto. now rewrite E.
    - destruct (Nat.eqb_spec k k0) as [->|]; auto. now rewrite E. }
  rewrite E. destruct (in_dec Nat.eq_dec k ks) as [H|H], (in_dec Nat.eq_dec k (k0 :: ks)) as [H'|H'];
    destruct (Nat.eqb_spec k k0) as [->|]; simpl in *; try tauto; intuition congruence.
Qed.

Definition okq (n : nat) (q : quad) : Prop := NoDup (quad_list q) /\ (forall k, In k (quad_list q) -> k < n).
Lemma okquad_spec : forall n q, okquad n q = true <-> okq n q.
Proof.
  intros n [a b c d]. unfold okquad, okq, quad_list. simpl.
  rewrite !andb_true_iff, !negb_true_iff, !Nat.ltb_lt, !Nat.eqb_neq. split.
  - intros H. decompose [and] H. split.
    + repeat constructor; simpl; intuition congruence.
    + intros k [<-|[<-|[<-|[<-|[]]]]]; auto.
  - intros [N V]. inversion N as [|? ? N1 N2]; subst. inversion N2 as [|? ? N3 N4]; subst. inversion N4 as [|? ? N5 N6]; subst.
    simpl in *. repeat split; try (apply V; auto 10); intuition congruence.
Qed.

(** ** the general invariant *)
Definition sorted (l : list nat) : Prop := StronglySorted lt l.
Lemma sorted_tl : forall l, sorted l -> sorted (tl l).
Proof. intros [|x l] H; auto. now inversion H. Qed.
Lemma sorted_hd : forall x l y, sorted (x :: l) -> In y l -> x < y.
Proof. intros x l y H Hy. inversion H as [|? ? H1 H2]; subst. rewrite Forall_forall in H2. auto. Qed.
Lemma sorted_snoc : forall l n, sorted l -> (forall x, In x l -> x < n) -> sorted (l ++ [n]).
Proof.
  induction l as [|x l IH]; intros n H B; simpl.
  - repeat constructor.
  - inversion H as [|? ? H1 H2]; subst. constructor.
    + apply IH; auto. intros y Hy; apply B; simpl; auto.
    + rewrite Forall_forall in *. intros y Hy. apply in_app_or in Hy as [Hy|[<-|[]]]; auto. apply B; simpl; auto.
Qed.

Record G (s : st I) : Prop := mkG {
  g_len : length (locks s) = length (pop s);
  g_sort : forall k, sorted (L s k);
  g_act : forall c k, In c (L s k) -> A s c k;
  g_wait : forall c k, W s c k <-> In c (tl (L s k));
  g_quad : forall c x, nth_error (cs s) c = Some x -> okq (length (pop s)) (cq x);
  g_rel : forall c x it ib i0 i1 l, nth_error (cs s) c = Some x -> cpc x = PRel it ib i0 i1 l ->
          incl l [kb (cq x); k0 (cq x); k1 (cq x)] /\ NoDup l
}.

Lemma in_tl : forall (l : list nat) x, In x (tl l) -> In x l.
Proof. intros [|y l] x H; simpl in *; auto. Qed.
Lemma nodup_tl2 : forall l d, sorted l -> (In d (tl (tl l)) <-> In d (tl l) /\ hd_error (tl l) <> Some d).
Proof.
  intros [|x [|y l]] d H; simpl; try tauto.
  apply sorted_tl in H. simpl in H. split.
  - intros Hd. split; auto. assert (y < d) by (eapply sorted_hd; eauto). intros [= ->]; lia.
  - intros [[->|Hd] N]; auto. congruence.
Qed.

(** releasing without being asked *)
Lemma G_release1 : forall k s, G s -> G (release1 k s).
Proof.
  intros k s [Ln So Ac Wa Qu Re]. destruct (release1_misc k s) as (P & _ & _ & _ & LL & _ & MC).
  constructor.
  - now rewrite P, LL.
  - intros k'. rewrite release1_L. destruct (Nat.eqb k' k); auto. apply sorted_tl; auto.
  - intros c k'. rewrite release1_L, release1_A. destruct (Nat.eqb_spec k' k) as [->|]; auto.
    intros H. apply Ac. now apply in_tl.
  - intros c k'. rewrite release1_W, release1_L, Wa. destruct (Nat.eqb_spec k' k) as [->|].
    + rewrite nodup_tl2 by auto. intuition.
    + intuition.
  - intros c x. rewrite P, release1_cs. destruct (nth_error (cs s) c) as [y|] eqn:E; [|discriminate].
    destruct (match tl (L s k) with h :: _ => c =? h | [] => false end); intros [= <-]; rewrite ?grant_cq; eauto.
  - intros c x it ib i0 i1 l. rewrite release1_cs. destruct (nth_error (cs s) c) as [y|] eqn:E; [|discriminate].
    destruct (match tl (L s k) with h :: _ => c =? h | [] => false end); intros [= <-] H; eauto.
    rewrite grant_cq. destruct y as [q p]. destruct p; simpl in *; try discriminate. exact (Re c _ it ib i0 i1 l E H).
Qed.

Definition nowait (p : pc I) : Prop := match p with PWait (_ :: _) => False | _ => True end.
Definition okrel (q : quad) (p : pc I) : Prop := match p with PRel _ _ _ _ l => incl l [kb q; k0 q; k1 q] /\ NoDup l | _ => True end.
Lemma nowait_pend : forall q p, nowait p -> pend (mkChal q p) = [].
Proof. intros q p H. destruct p as [[|]| | | | | | |]; simpl in *; tauto. Qed.

(** a local step that keeps everything it still has to release *)
Lemma G_goto : forall s c q p0 p, G s -> nth_error (cs s) c = Some (mkChal q p0) ->
  nowait p0 -> nowait p -> okrel q p -> (forall k, k < length (pop s) -> In k (act (mkChal q p0)) -> In k (act (mkChal q p))) ->
  G (goto s c p).
Proof.
  intros s c q p0 p [Ln So Ac Wa Qu Re] E W0 W1 OR Sub.
  assert (NW : forall k, ~ W s c k). { intros k (x & Hx & Hk). rewrite E in Hx. injection Hx as <-. now rewrite nowait_pend in Hk. }
  assert (LB : forall d k, In d (L s k) -> k < length (pop s)).
  { intros d k H. destruct (le_lt_dec (length (locks s)) k) as [Z|Z]; [rewrite L_out in H by lia; destruct H|lia]. }
  constructor; auto.
  - intros d k H. rewrite (goto_A s c q p0 p d k E). rewrite goto_L in H. destruct (Nat.eqb_spec d c) as [->|]; auto.
    apply Sub; [eauto|]. destruct (Ac _ _ H) as (x & Hx & Hk). rewrite E in Hx. now injection Hx as <-.
  - intros d k. rewrite (goto_W s c q p0 p d k E). rewrite goto_L, <- Wa. destruct (Nat.eqb_spec d c) as [->|]; [|tauto].
    rewrite nowait_pend by auto. generalize (NW k). simpl. tauto.
  - intros d x. rewrite goto_cs, E. destruct (Nat.eqb_spec d c) as [->|]; [intros [= <-]|]; simpl; eauto. apply (Qu c _ E).
  - intros d x it ib i0 i1 l. rewrite goto_cs, E. destruct (Nat.eqb_spec d c) as [->|]; [intros [= <-]; simpl; intros ->; exact OR|]; eauto.
Qed.

(** a challenge releasing slot k *)
Lemma G_release_own : forall s c q p0 p k, G s -> nth_error (cs s) c = Some (mkChal q p0) ->
  nowait p0 -> nowait p -> okrel q p -> (forall k', k' <> k -> In k' (act (mkChal q p0)) -> In k' (act (mkChal q p))) ->
  G (release1 k (goto s c p)).
Proof.
  intros s c q p0 p k [Ln So Ac Wa Qu Re] E W0 W1 OR Sub.
  assert (NW : forall k, ~ In c (tl (L s k))).
  { intros k' H. apply Wa in H. destruct H as (x & Hx & Hk). rewrite E in Hx. injection Hx as <-. now rewrite nowait_pend in Hk. }
  destruct (release1_misc k (goto s c p)) as (P & _ & _ & _ & LL & _ & MC).
  constructor.
  - rewrite P, LL. exact Ln.
  - intros k'. rewrite release1_L, !goto_L. destruct (Nat.eqb k' k); auto. apply sorted_tl; auto.
  - intros d k'. rewrite release1_L, release1_A, !goto_L. rewrite (goto_A s c q p0 p d k' E).
    destruct (Nat.eqb_spec k' k) as [->|N].
    + intros H. destruct (Nat.eqb_spec d c) as [->|]; [now apply NW in H|]. apply Ac. now apply in_tl.
    + intros H. destruct (Nat.eqb_spec d c) as [->|]; auto. apply Sub; auto.
      destruct (Ac _ _ H) as (x & Hx & Hk). rewrite E in Hx. now injection Hx as <-.
  - intros d k'. rewrite release1_W, release1_L, !goto_L. rewrite (goto_W s c q p0 p d k' E).
    assert (X : (if d =? c then In k' (pend (mkChal q p)) else W s d k') <-> In d (tl (L s k'))).
    { destruct (Nat.eqb_spec d c) as [->|]; auto. rewrite nowait_pend by auto. generalize (NW k'). simpl. tauto. }
    rewrite X. destruct (Nat.eqb_spec k' k) as [->|].
    + rewrite nodup_tl2 by auto. intuition.
    + intuition.
  - intros d x. rewrite P, release1_cs, goto_cs, E. intros H.
    assert (exists y, nth_error (cs s) d = Some y /\ cq x = cq y) as (y & Hy & ->).
    { destruct (Nat.eqb_spec d c) as [->|]; simpl in H.
      - exists (mkChal q p0). split; auto.
        destruct (match tl (L (goto s c p) k) with h :: _ => c =? h | [] => false end); injection H as <-; now rewrite ?grant_cq.
      - destruct (nth_error (cs s) d) as [y|]; [|discriminate]. exists y. split; auto.
        destruct (match tl (L (goto s c p) k) with h :: _ => d =? h | [] => false end); injection H as <-; now rewrite ?grant_cq. }
    eauto.
  - intros d x it ib i0 i1 l. rewrite release1_cs, goto_cs, E. intros H Hp.
    assert (H' : exists y, (if d =? c then Some (mkChal q p) else nth_error (cs s) d) = Some y /\ cq x = cq y /\ cpc y = PRel it ib i0 i1 l).
    { destruct (Nat.eqb_spec d c) as [->|]; simpl in H.
      - exists (mkChal q p). split; auto.
        destruct (match tl (L (goto s c p) k) with h :: _ => c =? h | [] => false end); injection H as <-; auto.
        rewrite grant_cq. split; auto. simpl. destruct p; simpl in Hp; congruence.
      - destruct (nth_error (cs s) d) as [y|]; [|discriminate]. exists y. split; auto.
        destruct (match tl (L (goto s c p) k) with h :: _ => d =? h | [] => false end); injection H as <-; auto.
        rewrite grant_cq. split; auto. destruct y as [qq pp]. destruct pp; simpl in *; congruence. }
    destruct H' as (y & Hy & Hq & Hp'). rewrite Hq.
    destruct (Nat.eqb_spec d c) as [->|]; [injection Hy as <-; simpl in *; subst p; exact OR|]. eapply Re; eauto.
Qed.

Lemma G_init : forall p, G (init p).
Proof.
  intros p. unfold init. assert (E : forall k, L (mkSt p (repeat [] (length p)) [] true true []) k = []).
  { intros k. unfold L; simpl. destruct (le_lt_dec (length p) k).
    - apply nth_overflow. now rewrite repeat_length.
    - apply nth_repeat. }
  constructor; simpl; auto.
  - apply repeat_length.
  - intros k. rewrite E. constructor.
  - intros c k. rewrite E. intros [].
  - intros c k. rewrite E. simpl. split; [|tauto]. intros (x & H & _). destruct c; discriminate.
  - intros [|c] x; discriminate.
  - intros [|c] x; discriminate.
Qed.

Lemma enq_L : forall (s : st I) q k, okq (length (locks s)) q ->
  nth k (enqueue (length (cs s)) (quad_list q) (locks s)) [] =
  if in_dec Nat.eq_dec k (quad_list q) then L s k ++ [length (cs s)] else L s k.
Proof.
  intros s q k [N V]. rewrite <- nth_default_eq. unfold nth_default. rewrite enqueue_nth by auto.
  unfold L. rewrite <- nth_default_eq. unfold nth_default.
  destruct (in_dec Nat.eq_dec k (quad_list q)) as [H|H]; auto.
  apply V in H. destruct (nth_error (locks s) k) eqn:E; auto. apply nth_error_None in E. lia.
Qed.
Lemma snoc_nth : forall (l : list (chal I)) x c y, nth_error (l ++ [x]) c = Some y <->
  (nth_error l c = Some y \/ (c = length l /\ y = x)).
Proof.
  intros l x c y. destruct (lt_eq_lt_dec c (length l)) as [[H|H]|H].
  - rewrite nth_error_app1 by auto. split; auto. intros [E|[E _]]; auto. lia.
  - subst. rewrite nth_error_app2 by auto. rewrite Nat.sub_diag. simpl. split; [intros [= <-]; auto|].
    intros [E|[_ ->]]; auto. assert (nth_error l (length l) <> None) by congruence. apply nth_error_Some in H; lia.
  - rewrite nth_error_app2 by lia. destruct (c - length l) as [|m] eqn:Em; [lia|]. simpl.
    assert (E1 : nth_error l c = None) by (apply nth_error_None; lia). rewrite E1.
    destruct m; simpl; split; try discriminate; intros [E|[E _]]; try discriminate; lia.
Qed.

Lemma G_ids : forall s c k, G s -> In c (L s k) -> c < length (cs s).
Proof. intros s c k g H. apply (g_act s g) in H. destruct H as (x & H & _). apply nth_error_Some. congruence. Qed.

Lemma nonempty_L : forall (s : st I) k, nonempty_lock (locks s) k = true <-> L s k <> [].
Proof.
  intros s k. unfold nonempty_lock. destruct (nth_error (locks s) k) as [Q|] eqn:E.
  - rewrite (L_nth _ _ _ E). destruct Q; split; congruence.
  - rewrite L_out by now apply nth_error_None. split; congruence.
Qed.

(** changing population values, flags, pending aborts only *)
Lemma G_other : forall s p r pr ab, G s -> length p = length (pop s) ->
  G (mkSt p (locks s) (cs s) r pr ab).
Proof.
  intros s p r pr ab g H. constructor; simpl.
  - rewrite H. apply g.
  - apply (g_sort s g).
  - apply (g_act s g).
  - apply (g_wait s g).
  - intros c x Hx. rewrite H. eapply g_quad; eauto.
  - apply (g_rel s g).
Qed.

Variable mk : nat -> I -> I -> I -> I -> mkres I.
Variable ev : nat -> I -> I -> option I.
Variable better : I -> I -> bool.
Variable histcrash : nat -> bool.
Variable xSSE : bool.
Notation step := (step mk ev better histcrash xSSE).
Notation exec := (exec mk ev better histcrash xSSE).

Lemma G_request : forall s e s' q, e = ERequest q -> G s -> step s e = Some s' -> G s'.
Proof.
  intros s e s' q -> g. unfold ChalModel.step. destruct (run s); [|discriminate]. cbn [andb].
  destruct (okquad (length (pop s)) q) eqn:OK; [|discriminate]. apply okquad_spec in OK.
  assert (NN : forall k, ~ In (length (cs s)) (L s k)) by (intros k H; apply G_ids in H; auto; lia).
  destruct (prun s); intros [= <-].
  - assert (OK' : okq (length (locks s)) q) by (rewrite (g_len s g); exact OK).
    constructor; cbn [locks pop cs].
    + rewrite enqueue_len. apply g.
    + intros k. unfold L; cbn [locks]. rewrite enq_L by auto. destruct (in_dec Nat.eq_dec k (quad_list q)); [|apply g].
      apply sorted_snoc; [apply g|]. intros x Hx. eapply G_ids; eauto.
    + intros c k. unfold L at 1; cbn [locks]. rewrite enq_L by auto. intros H. unfold A; cbn [cs].
      assert (X : In c (L s k) \/ (c = length (cs s) /\ In k (quad_list q))).
      { destruct (in_dec Nat.eq_dec k (quad_list q)); auto. apply in_app_or in H as [H|[<-|[]]]; auto. }
      destruct X as [X|[-> X]].
      * apply (g_act s g) in X. destruct X as (x & X & Y). exists x. split; auto. apply snoc_nth. auto.
      * eexists. split; [apply snoc_nth; right; eauto|]. exact X.
    + intros c k. unfold L at 1; cbn [locks]. rewrite enq_L by auto. unfold W; cbn [cs]. setoid_rewrite snoc_nth.
      assert (Wg := g_wait s g). unfold W in Wg.
      split.
      * intros (x & [Hx|[-> ->]] & Hk).
        -- assert (In c (tl (L s k))) by (apply Wg; eauto). destruct (in_dec Nat.eq_dec k (quad_list q)); auto.
           destruct (L s k); simpl in *; auto. apply in_or_app; auto.
        -- unfold pend in Hk; simpl in Hk. apply (proj1 (filter_In _ k (quad_list q))) in Hk. destruct Hk as [Hk He]. apply nonempty_L in He.
           destruct (in_dec Nat.eq_dec k (quad_list q)); [|tauto]. destruct (L s k); [tauto|]. simpl. apply in_or_app; simpl; auto.
      * intros H. destruct (in_dec Nat.eq_dec k (quad_list q)) as [Hq|Hq].
        -- destruct (L s k) as [|h t] eqn:EL; [simpl in H; tauto|]. simpl in H. apply in_app_or in H as [H|[<-|[]]].
           ++ assert (In c (tl (L s k))) by (rewrite EL; auto). apply Wg in H0. destruct H0 as (x & ? & ?). eauto.
           ++ eexists. split; [right; eauto|]. unfold pend; simpl.
              change (In k (filter (nonempty_lock (locks s)) (quad_list q))).
              apply filter_In. split; auto. apply nonempty_L. congruence.
        -- apply Wg in H. destruct H as (x & ? & ?). eauto.
    + intros c x H. apply snoc_nth in H as [H|[_ ->]]; [eapply g; eauto|auto].
    + intros c x it ib i0 i1 l H Hp. apply snoc_nth in H as [H|[_ ->]]; [eapply g; eauto|discriminate].
  - constructor; simpl; try apply g.
    + intros c k H. apply (g_act s g) in H. destruct H as (x & H & Hk). exists x. split; auto. simpl. apply snoc_nth; auto.
    + intros c k. unfold W; simpl. setoid_rewrite snoc_nth. assert (Wg := g_wait s g c k). unfold W in Wg.
      change (L (with_cs s (cs s ++ [mkChal q (PWait [])])) k) with (L s k). rewrite <- Wg. split.
      * intros (x & [Hx|[-> ->]] & Hk); eauto. destruct Hk.
      * intros (x & Hx & Hk); eauto.
    + intros c x H. apply snoc_nth in H as [H|[_ ->]]; [eapply g; eauto|auto].
    + intros c x it ib i0 i1 l H Hp. apply snoc_nth in H as [H|[_ ->]]; [eapply g; eauto|discriminate].
Qed.


Lemma in_quad_rel : forall q k, In k (quad_list q) <-> In k (kt q :: [kb q; k0 q; k1 q]).
Proof. reflexivity. Qed.

Ltac inv_opt := match goal with H : Some _ = Some _ |- _ => injection H as <- end.

Lemma G_step : forall s e s', G s -> step s e = Some s' -> G s'.
Proof.
  intros s e s' g H. destruct e as [q|c|c|c|c|c|c| | |n].
  - eapply G_request; eauto.
  - simpl in H. destruct (nth_error (cs s) c) as [[q p]|] eqn:E; [|discriminate]. destruct p as [[|]| | | | | | |]; try discriminate.
    assert (RA : G (goto s c (PRelAll (seq 0 (length (locks s)))))).
    { eapply G_goto; eauto; simpl; auto. intros k Hk _. unfold act; simpl. apply in_seq. rewrite (g_len s g). lia. }
    destruct (run s); [|now inv_opt].
    destruct (nth_error (pop s) (kt q)), (nth_error (pop s) (kb q)), (nth_error (pop s) (k0 q)), (nth_error (pop s) (k1 q)); inv_opt; auto.
    eapply G_goto; eauto; simpl; auto. split; [apply incl_refl|].
    assert (N := proj1 (g_quad s g c _ E)). now inversion N.
  - simpl in H. destruct (nth_error (cs s) c) as [[q p]|] eqn:E; [|discriminate].
    destruct p as [|l|it ib i0 i1 l| | | | |]; try discriminate; destruct l as [|k l]; try discriminate; inv_opt.
    + eapply G_goto; eauto; simpl; auto.
    + eapply G_release_own; eauto; simpl; auto. unfold act; simpl. intuition congruence.
    + eapply G_release_own; eauto; simpl; auto.
      * destruct (g_rel s g c _ it ib i0 i1 _ E eq_refl) as [X Y]. simpl in X, Y. split; [|now inversion Y].
        intros y Hy. apply X. simpl; auto.
      * unfold act; simpl. intuition congruence.
  - simpl in H. destruct (nth_error (cs s) c) as [[q p]|] eqn:E; [|discriminate].
    destruct p as [| |it ib i0 i1 l| | | | |]; try discriminate; destruct l as [|k l]; try discriminate.
    destruct (mk c it ib i0 i1); inv_opt; eapply G_goto; eauto; simpl; auto.
  - simpl in H. destruct (nth_error (cs s) c) as [[q p]|] eqn:E; [|discriminate].
    destruct p as [| | |it ch| | | |]; try discriminate.
    assert (GT : G (goto s c PRelT)) by (eapply G_goto; eauto; simpl; auto).
    destruct (ev c it ch) as [r|].
    + destruct (run s); [|now inv_opt]. destruct (better r it); inv_opt.
      * apply (G_other (goto s c PRelT)); auto. apply upd_length.
      * destruct xSSE; auto. eapply G_goto; eauto; simpl; auto.
    + inv_opt. now apply (G_other (goto s c PRelT)).
  - simpl in H. destruct (nth_error (cs s) c) as [[q p]|] eqn:E; [|discriminate].
    destruct p; try discriminate. inv_opt. destruct (histcrash c); eapply G_goto; eauto; simpl; auto.
  - simpl in H. destruct (nth_error (cs s) c) as [[q p]|] eqn:E; [|discriminate].
    destruct p; try discriminate. inv_opt. eapply G_release_own; eauto; simpl; auto.
    unfold act; simpl. intuition congruence.
  - simpl in H. inv_opt. now apply G_other.
  - simpl in H. inv_opt. now apply G_other.
  - simpl in H. destruct (nth_error (abq s) n) as [k|]; [|discriminate]. inv_opt. apply G_release1. now apply G_other.
Qed.

Lemma G_exec : forall es s s', G s -> exec s es = Some s' -> G s'.
Proof.
  induction es as [|e es IH]; simpl; intros s s' g H; [now inv_opt|].
  destruct (step s e) as [s1|] eqn:E; [|discriminate]. eapply IH; [eapply G_step; eauto|eauto].
Qed.
End Proofs.
