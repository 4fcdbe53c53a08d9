(** Serializability, exclusive ownership, liveness of challenges *)
From Coq Require Import List Bool Arith Lia Sorted.
From Verif Require Import Py ChalModel ChalProofs.
Import ListNotations.

Section Proofs.
Context {I : Type}.
Variable mk : nat -> I -> I -> I -> I -> mkres I.
Variable ev : nat -> I -> I -> option I.
Variable better : I -> I -> bool.
#[local] Arguments enqueue : simpl never.
#[local] Arguments quad_list : simpl never.
#[local] Arguments filter : simpl never.
Ltac inv_opt := match goal with H : Some _ = Some _ |- _ => injection H as <- end.

(** ** the sequential algorithm *)
(** one complete challenge on its own *)
Definition seq_step (c : nat) (q : quad) (p : list I) : list I :=
  match nth_error p (kt q), nth_error p (kb q), nth_error p (k0 q), nth_error p (k1 q) with
  | Some it, Some ib, Some i0, Some i1 =>
    match mk c it ib i0 i1 with
    | Candidate ch =>
      match ev c it ch with
      | Some r => if better r it then upd (kt q) r p else p
      | None => p
      end
    | _ => p
    end
  | _, _, _, _ => p
  end.
Fixpoint seq_run (c : nat) (qs : list quad) (p : list I) : list I :=
  match qs with [] => p | q :: qs => seq_run (S c) qs (seq_step c q p) end.

Lemma seq_step_len : forall c q p, length (seq_step c q p) = length p.
Proof.
  intros. unfold seq_step. repeat (match goal with |- context [match ?x with _ => _ end] => destruct x end; auto). apply upd_length.
Qed.
Lemma seq_run_len : forall qs c p, length (seq_run c qs p) = length p.
Proof. induction qs; simpl; intros; auto. rewrite IHqs. apply seq_step_len. Qed.
Lemma seq_run_app : forall qs qs' c p, seq_run c (qs ++ qs') p = seq_run (c + length qs) qs' (seq_run c qs p).
Proof. induction qs as [|q qs IH]; intros; simpl; [now rewrite Nat.add_0_r|]. rewrite IH. now rewrite Nat.add_succ_r. Qed.
Lemma seq_step_other : forall c q p k, k <> kt q -> nth_error (seq_step c q p) k = nth_error p k.
Proof.
  intros. unfold seq_step. repeat (match goal with |- context [match ?x with _ => _ end] => destruct x end; auto). apply upd_other. congruence.
Qed.

Variable pop0 : list I.
(** population after the first j challenges of qs run one after the other *)
Definition P (qs : list quad) (j : nat) : list I := seq_run 0 (firstn j qs) pop0.

Lemma firstn_S_nth : forall {X} (l : list X) j x, nth_error l j = Some x -> firstn (S j) l = firstn j l ++ [x].
Proof. induction l as [|y l IH]; intros [|j] x H; simpl in *; try discriminate; [now inversion H|]. f_equal. now apply IH. Qed.
Lemma P_S : forall qs j q, nth_error qs j = Some q -> P qs (S j) = seq_step j q (P qs j).
Proof.
  intros qs j q H. unfold P. rewrite (firstn_S_nth _ _ _ H), seq_run_app. simpl.
  rewrite firstn_length_le; auto. apply Nat.lt_le_incl. apply nth_error_Some. congruence.
Qed.
Lemma P_len : forall qs j, length (P qs j) = length pop0.
Proof. intros. apply seq_run_len. Qed.
Lemma P_snoc : forall qs q j, j <= length qs -> P (qs ++ [q]) j = P qs j.
Proof.
  intros. unfold P. rewrite firstn_app. replace (j - length qs) with 0 by lia. simpl. now rewrite app_nil_r.
Qed.
Lemma P_stable : forall qs k m j, j <= m -> m <= length qs ->
  (forall d q, j <= d < m -> nth_error qs d = Some q -> kt q <> k) ->
  nth_error (P qs j) k = nth_error (P qs m) k.
Proof.
  intros qs k m j H. induction H as [|m H IH]; intros Hm N; auto.
  destruct (nth_error qs m) as [q|] eqn:E; [|apply nth_error_None in E; lia].
  rewrite (P_S _ _ _ E), seq_step_other.
  - apply IH; [lia|]. intros d q' Hd. apply N. lia.
  - intros ->. apply (N m q); auto; lia.
Qed.

(** ** the serial invariant *)
Definition decided (x : chal I) : bool :=
  match cpc x with PHist | PRelT | PFail | PDone => true | _ => false end.
Definition dec_at (s : st I) (c : nat) : bool := match nth_error (cs s) c with Some x => decided x | None => false end.
Definition reqs (s : st I) : list quad := map cq (cs s).
Definition lim (s : st I) (k : nat) : nat :=
  match L s k with [] => length (cs s) | h :: _ => if dec_at s h then S h else h end.
Definition okpc (qs : list quad) (c : nat) (x : chal I) : Prop :=
  match cpc x with
  | PRelAll _ => False
  | PRel it ib i0 i1 _ =>
    nth_error (P qs c) (kt (cq x)) = Some it /\ nth_error (P qs c) (kb (cq x)) = Some ib /\
    nth_error (P qs c) (k0 (cq x)) = Some i0 /\ nth_error (P qs c) (k1 (cq x)) = Some i1
  | PEval it ch =>
    nth_error (P qs c) (kt (cq x)) = Some it /\
    exists ib i0 i1, nth_error (P qs c) (kb (cq x)) = Some ib /\
      nth_error (P qs c) (k0 (cq x)) = Some i0 /\ nth_error (P qs c) (k1 (cq x)) = Some i1 /\
      mk c it ib i0 i1 = Candidate ch
  | _ => True
  end.
Record SI (s : st I) : Prop := mkSI {
  s_g : G s;
  s_len : length (pop s) = length pop0;
  s_abq : abq s = [];
  s_act : forall c k, k < length (pop s) -> A s c k -> In c (L s k);
  s_down : forall c c' k, c < c' -> U s c k -> U s c' k -> A s c k -> A s c' k;
  s_val : forall k, k < length (pop s) -> nth_error (pop s) k = nth_error (P (reqs s) (lim s k)) k;
  s_pc : forall c x, nth_error (cs s) c = Some x -> okpc (reqs s) c x
}.
Definition good (s : st I) : Prop := run s = true /\ prun s = true.

Lemma SI_init : good (init pop0) -> SI (init pop0).
Proof.
  intros _. assert (E : forall k, L (init pop0) k = []).
  { intros k. unfold L, init; simpl. destruct (le_lt_dec (length pop0) k).
    - apply nth_overflow. now rewrite repeat_length.
    - apply nth_repeat. }
  constructor; auto.
  - apply G_init.
  - intros c k _ (x & H & _). destruct c; discriminate.
  - intros c c' k _ (x & H & _). destruct c; discriminate.
  - intros k _. unfold lim. rewrite E. reflexivity.
  - intros [|c] x; discriminate.
Qed.

Lemma A_U : forall s c k, G s -> (forall x, nth_error (cs s) c = Some x -> okpc (reqs s) c x) -> A s c k -> U s c k.
Proof.
  intros s c k g O (x & Hx & Hk). exists x. split; auto. specialize (O x Hx).
  destruct x as [q p]. unfold act, okpc in *. simpl in *. unfold quad_list.
  destruct p; simpl in *; try tauto.
  destruct Hk as [<-|Hk]; [now left|]. right. apply (g_rel s g c _ _ _ _ _ _ Hx eq_refl). exact Hk.
Qed.

(** a granted challenge is at the head of the queues of the locks it has *)
Lemma head_of : forall s c k, SI s -> k < length (pop s) -> A s c k -> ~ W s c k -> exists t, L s k = c :: t.
Proof.
  intros s c k si Hk HA HW. assert (H := s_act s si c k Hk HA).
  destruct (L s k) as [|h t] eqn:E; [destruct H|]. destruct H as [->|H]; [eauto|].
  exfalso. apply HW. apply (g_wait s (s_g s si)). now rewrite E.
Qed.
Lemma A_bound : forall s c k, SI s -> A s c k -> k < length (pop s).
Proof.
  intros s c k si HA. assert (g := s_g s si).
  assert (X : U s c k) by (apply A_U; auto; intros; now apply (s_pc s si)).
  destruct X as (x & Hx & Hk). now apply (g_quad s g c x Hx).
Qed.
Lemma lim_le : forall s k, G s -> lim s k <= length (cs s).
Proof.
  intros s k g. unfold lim. destruct (L s k) as [|h t] eqn:E; auto.
  assert (h < length (cs s)) by (apply (G_ids s h k g); rewrite E; now left). destruct (dec_at s h); lia.
Qed.

(** states with the same locks, where only challenge c moves on without
    becoming decided *)
Lemma SI_move : forall s c q p0 p, SI s -> nth_error (cs s) c = Some (mkChal q p0) ->
  G (goto s c p) -> nowait p0 -> nowait p ->
  (forall k, In k (act (mkChal q p)) <-> In k (act (mkChal q p0))) ->
  decided (mkChal q p) = decided (mkChal q p0) ->
  okpc (reqs s) c (mkChal q p) -> SI (goto s c p).
Proof.
  intros s c q p0 p si E g' W0 W1 AA DD OK.
  assert (AE : forall d k, A (goto s c p) d k <-> A s d k).
  { intros d k. rewrite (goto_A s c q p0 p d k E). destruct (Nat.eqb_spec d c) as [->|]; [|tauto].
    rewrite AA. unfold A. rewrite E. split; [eauto|]. intros (x & [= <-] & H); auto. }
  assert (RE : reqs (goto s c p) = reqs s) by apply set_pc_cq.
  assert (DE : forall d, dec_at (goto s c p) d = dec_at s d).
  { intros d. unfold dec_at. rewrite goto_cs, E. destruct (Nat.eqb_spec d c) as [->|]; auto. simpl. now rewrite E. }
  assert (LE : forall k, lim (goto s c p) k = lim s k).
  { intros k. unfold lim. rewrite goto_L. destruct (L s k); [apply goto_len|]. now rewrite DE. }
  constructor; auto.
  - apply si.
  - apply si.
  - intros d k Hk HA. apply AE in HA. now apply (s_act s si).
  - intros d d' k Hd. rewrite !goto_U, !AE. now apply (s_down s si).
  - intros k Hk. rewrite RE, LE. now apply (s_val s si).
  - intros d x. rewrite RE, goto_cs, E. destruct (Nat.eqb_spec d c) as [->|]; [intros [= <-]; exact OK|]. apply (s_pc s si).
Qed.

(** challenge c, which only has its target left, becomes decided; the population
    is the one after its sequential step *)
Lemma SI_decide : forall s c q p0 p pp, SI s -> nth_error (cs s) c = Some (mkChal q p0) ->
  G (goto s c p) -> nowait p0 -> nowait p ->
  act (mkChal q p0) = [kt q] -> act (mkChal q p) = [kt q] ->
  decided (mkChal q p0) = false -> decided (mkChal q p) = true ->
  okpc (reqs s) c (mkChal q p) ->
  length pp = length (pop s) ->
  (forall k, k <> kt q -> nth_error pp k = nth_error (pop s) k) ->
  nth_error pp (kt q) = nth_error (P (reqs s) (S c)) (kt q) ->
  SI (mkSt pp (locks s) (cs (goto s c p)) (run s) (prun s) (abq s)).
Proof.
  intros s c q p0 p pp si E g' W0 W1 A0 A1 D0 D1 OK Lp Po Pt.
  set (s' := mkSt _ _ _ _ _ _).
  assert (AE : forall d k, A s' d k <-> A s d k).
  { intros d k. change (A (goto s c p) d k <-> A s d k). rewrite (goto_A s c q p0 p d k E). destruct (Nat.eqb_spec d c) as [->|]; [|tauto].
    rewrite A1, <- A0. unfold A. rewrite E. split; [eauto|]. intros (x & [= <-] & H); auto. }
  assert (RE : reqs s' = reqs s) by apply set_pc_cq.
  assert (DE : forall d, dec_at s' d = if d =? c then true else dec_at s d).
  { intros d. unfold dec_at. unfold s'; cbn [cs]. rewrite goto_cs, E. destruct (Nat.eqb_spec d c) as [->|]; auto. }
  assert (Ac : A s c (kt q)) by (exists (mkChal q p0); split; auto; rewrite A0; now left).
  assert (LE : forall k, lim s' k = if k =? kt q then S c else lim s k).
  { intros k. unfold lim. change (L s' k) with (L s k). destruct (Nat.eqb_spec k (kt q)) as [->|N].
    - destruct (head_of s c (kt q) si) as [t ->]; auto.
      + now apply (A_bound s c _ si).
      + intros (x & Hx & Hk). rewrite E in Hx. injection Hx as <-. now rewrite nowait_pend in Hk.
      + rewrite DE, Nat.eqb_refl. reflexivity.
    - destruct (L s k) as [|h t] eqn:El; [apply goto_len|]. rewrite DE.
      destruct (Nat.eqb_spec h c) as [->|]; auto. exfalso.
      assert (X : A s c k) by (apply (g_act s (s_g s si)); rewrite El; now left).
      destruct X as (x & Hx & Hk). rewrite E in Hx. injection Hx as <-. rewrite A0 in Hk. simpl in Hk. intuition congruence. }
  constructor.
  - apply (G_other (goto s c p)); auto.
  - simpl. rewrite Lp. apply si.
  - apply si.
  - intros d k Hk HA. apply AE in HA. simpl in Hk. rewrite Lp in Hk. now apply (s_act s si).
  - intros d d' k Hd HU HU'. rewrite !AE. 
    assert (V : forall d, U s' d k <-> U s d k) by (intros; apply goto_U). rewrite V in HU, HU'. now apply (s_down s si).
  - intros k Hk. simpl in Hk. rewrite Lp in Hk. rewrite RE, LE. cbn [pop s']. destruct (Nat.eqb_spec k (kt q)) as [->|N]; auto.
    rewrite Po by auto. now apply (s_val s si).
  - intros d x. rewrite RE. unfold s'; cbn [cs]. rewrite goto_cs, E. destruct (Nat.eqb_spec d c) as [->|]; [intros [= <-]; exact OK|]. apply (s_pc s si).
Qed.

(** challenge c releases slot k, and slot k has its value after challenge c *)
Lemma SI_release : forall s c q p0 p k, SI s -> nth_error (cs s) c = Some (mkChal q p0) ->
  G (release1 k (goto s c p)) -> nowait p0 -> nowait p ->
  (forall k', In k' (act (mkChal q p0)) <-> k' = k \/ In k' (act (mkChal q p))) ->
  ~ In k (act (mkChal q p)) ->
  decided (mkChal q p) = decided (mkChal q p0) ->
  okpc (reqs s) c (mkChal q p) ->
  (decided (mkChal q p0) = true \/ k <> kt q) ->
  SI (release1 k (goto s c p)).
Proof.
  intros s c q p0 p k si E g' W0 W1 AA AN DD OK DK. assert (g := s_g s si).
  assert (NW : forall k, ~ W s c k). { intros k' (x & Hx & Hk). rewrite E in Hx. injection Hx as <-. now rewrite nowait_pend in Hk. }
  assert (Ac : A s c k) by (exists (mkChal q p0); split; auto; apply AA; now left).
  assert (Hk := A_bound s c k si Ac).
  destruct (head_of s c k si Hk Ac (NW k)) as [t El].
  destruct (release1_misc k (goto s c p)) as (Pp & Rr & Pr & Ab & LL & LC & MC).
  assert (RE : reqs (release1 k (goto s c p)) = reqs s) by (unfold reqs; rewrite MC; apply set_pc_cq).
  set (s' := release1 k (goto s c p)) in *.
  assert (NC : length (cs s') = length (cs s)) by (rewrite LC; apply goto_len).
  assert (AE : forall d k', A s' d k' <-> A s d k' /\ ~ (d = c /\ k' = k)).
  { intros d k'. unfold s'. rewrite release1_A, (goto_A s c q p0 p d k' E). destruct (Nat.eqb_spec d c) as [->|]; [|tauto].
    split.
    - intros H. split; [|intros [_ ->]; tauto]. exists (mkChal q p0). split; auto. apply AA. auto.
    - intros [(x & Hx & H) N]. rewrite E in Hx. injection Hx as <-. apply AA in H. destruct H as [->|]; tauto. }
  assert (LE0 : forall k', L s' k' = if k' =? k then t else L s k').
  { intros k'. unfold s'. rewrite release1_L, !goto_L. destruct (Nat.eqb k' k); auto. now rewrite El. }
  assert (DE : forall d, dec_at s' d = dec_at s d).
  { intros d. unfold dec_at, s'. rewrite release1_cs, goto_cs, E.
    assert (GD : forall y, decided (grant k y) = decided y) by (intros [? y]; destruct y; auto).
    destruct (Nat.eqb_spec d c) as [->|]; simpl.
    - rewrite E. destruct (match tl _ with [] => _ | _ => _ end); rewrite ?GD; auto.
    - destruct (nth_error (cs s) d); auto. destruct (match tl _ with [] => _ | _ => _ end); rewrite ?GD; auto. }
  assert (Sk := g_sort s g k). rewrite El in Sk.
  assert (LE : forall k', lim s' k' = if k' =? k then (match t with [] => length (cs s) | h :: _ => h end) else lim s k').
  { intros k'. unfold lim. rewrite LE0. destruct (Nat.eqb_spec k' k) as [->|].
    - destruct t as [|h t]; auto. rewrite DE.
      assert (X : W s h k) by (apply (g_wait s g); rewrite El; now left). destruct X as ([hq hp] & Hx & Hp).
      unfold dec_at. rewrite Hx. unfold pend in Hp; simpl in Hp; destruct hp; try reflexivity; destruct Hp.
    - destruct (L s k'); auto. now rewrite DE. }
  constructor; auto.
  - rewrite Pp. apply si.
  - rewrite Ab. apply si.
  - intros d k' Hk' HA. rewrite Pp in Hk'. apply AE in HA. destruct HA as [HA N]. rewrite LE0.
    assert (X := s_act s si d k' Hk' HA). destruct (Nat.eqb_spec k' k) as [->|]; auto.
    rewrite El in X. destruct X as [->|X]; auto. tauto.
  - intros d d' k' Hd HU HU'. rewrite !AE. unfold s' in HU, HU'. rewrite release1_U, goto_U in HU, HU'.
    intros [HA N]. split; [now apply (s_down s si d d' k')|]. intros [-> ->].
    (* d < c active on k while c is the head *)
    assert (X := s_act s si d k Hk HA). rewrite El in X. destruct X as [->|X]; [lia|].
    apply (sorted_hd _ _ _ Sk) in X. lia.
  - intros k' Hk'. rewrite Pp in *. change (pop (goto s c p)) with (pop s) in *. rewrite RE, LE.
    destruct (Nat.eqb_spec k' k) as [->|]; [|now apply (s_val s si)].
    rewrite (s_val s si k Hk).
    assert (Lc : lim s k = if decided (mkChal q p0) then S c else c).
    { unfold lim. rewrite El. unfold dec_at. now rewrite E. }
    assert (Cn : c < length (cs s)) by (apply nth_error_Some; congruence).
    assert (Up : c < match t with [] => length (cs s) | h :: _ => h end).
    { destruct t as [|h t]; auto. apply (sorted_hd _ _ _ Sk). now left. }
    assert (Un : match t with [] => length (cs s) | h :: _ => h end <= length (cs s)).
    { destruct t as [|h t]; auto. apply Nat.lt_le_incl. apply (G_ids s h k g). rewrite El. simpl; auto. }
    apply P_stable.
    + rewrite Lc. destruct (decided (mkChal q p0)); [exact Up|now apply Nat.lt_le_incl].
    + unfold reqs. now rewrite map_length.
    + intros d q' Hd Hq' Ek. unfold reqs in Hq'. rewrite nth_error_map in Hq'.
      destruct (nth_error (cs s) d) as [y|] eqn:Ey; [|discriminate]. injection Hq' as <-.
      destruct (Nat.eq_dec d c) as [->|Nd].
      * rewrite Ey in E. injection E as ->. simpl in Ek. rewrite Lc in Hd. destruct DK as [DK|DK]; [rewrite DK in Hd; lia|congruence].
      * assert (c < d) by (rewrite Lc in Hd; destruct (decided (mkChal q p0)); destruct Hd as [Hd _]; clear - Hd Nd; lia).
        assert (Uc : U s c k) by (apply A_U; auto; apply (s_pc s si)).
        assert (Ud : U s d k) by (exists y; split; auto; rewrite <- Ek; now left).
        assert (Ad := s_down s si c d k H Uc Ud Ac). apply (s_act s si) in Ad; auto.
        rewrite El in Ad. destruct Ad as [->|Ad]; [lia|].
        destruct t as [|h t]; [destruct Ad|]. destruct Ad as [->|Ad]; [lia|].
        apply sorted_tl in Sk. simpl in Sk. apply (sorted_hd _ _ _ Sk) in Ad. lia.
  - intros d x. rewrite RE. unfold s'. rewrite release1_cs, goto_cs, E.
    assert (GO : forall y d, okpc (reqs s) d y -> okpc (reqs s) d (grant k y)) by (intros [? y] d'; destruct y; auto).
    destruct (Nat.eqb_spec d c) as [->|]; simpl.
    + destruct (match tl _ with [] => _ | _ => _ end); intros [= <-]; auto.
    + destruct (nth_error (cs s) d) as [y|] eqn:Ey; [|discriminate].
      destruct (match tl _ with [] => _ | _ => _ end); intros [= <-]; auto; [apply GO|]; now apply (s_pc s si).
Qed.

Variable histcrash : nat -> bool.
Variable xSSE : bool.
Notation step := (step mk ev better histcrash xSSE).
Notation exec := (exec mk ev better histcrash xSSE).
Lemma SI_request : forall s q s', SI s -> good s -> step s (ERequest q) = Some s' -> SI s'.
Proof.
  intros s q s' si [Hr Hp] H. assert (g' : G s') by (eapply G_step; eauto; apply si).
  assert (g := s_g s si).
  unfold ChalModel.step in H. rewrite Hr, Hp in H. cbn [andb] in H.
  destruct (okquad (length (pop s)) q) eqn:OK; [|discriminate]. apply okquad_spec in OK. 
  assert (OK' : okq (length (locks s)) q) by (rewrite (g_len s g); exact OK).
  injection H as <-. set (s' := mkSt _ _ _ _ _ _) in *.
  assert (LE0 : forall k, L s' k = if in_dec Nat.eq_dec k (quad_list q) then L s k ++ [length (cs s)] else L s k).
  { intros k. unfold s', L at 1; cbn [locks]. now apply enq_L. }
  assert (RE : reqs s' = reqs s ++ [q]) by (unfold reqs, s'; cbn [cs]; now rewrite map_app).
  assert (NC : length (cs s') = S (length (cs s))) by (unfold s'; cbn [cs]; rewrite app_length; simpl; lia).
  assert (CE : forall d x, nth_error (cs s') d = Some x <-> nth_error (cs s) d = Some x \/ d = length (cs s) /\ x = mkChal q (PWait (filter (nonempty_lock (locks s)) (quad_list q)))).
  { intros. apply snoc_nth. }
  assert (RL : length (reqs s) = length (cs s)) by apply map_length.
  constructor; auto.
  - apply si.
  - apply si.
  - intros c k Hk (x & Hx & Ha). rewrite LE0. apply CE in Hx as [Hx|[-> ->]].
    + assert (X := s_act s si c k Hk (ex_intro _ x (conj Hx Ha))).
      destruct (in_dec Nat.eq_dec k (quad_list q)); auto. apply in_or_app; auto.
    + change (In k (quad_list q)) in Ha. destruct (in_dec Nat.eq_dec k (quad_list q)); [|contradiction]. apply in_or_app; simpl; auto.
  - intros c c' k Hc (x & Hx & Hu) (x' & Hx' & Hu') (y & Hy & Ha). rewrite Hx in Hy. injection Hy as <-.
    apply CE in Hx' as [Hx'|[-> ->]].
    + assert (c < length (cs s)) by (apply nth_error_Some in Hx || idtac; assert (c' < length (cs s)) by (apply nth_error_Some; congruence); lia).
      apply CE in Hx as [Hx|[-> _]]; [|lia].
      assert (X : A s c' k) by (apply (s_down s si c c' k Hc); [exists x; auto|exists x'; auto|exists x; auto]).
      destruct X as (z & Hz & Hza). exists z. split; auto. apply CE; auto.
    + eexists. split; [apply CE; right; eauto|]. exact Hu'.
  - intros k Hk. cbn [pop s'] in *. rewrite RE. rewrite (s_val s si k Hk).
    assert (Lm := lim_le s k g). rewrite <- RL in Lm.
    rewrite <- (P_snoc (reqs s) q) by auto.
    assert (DE : forall d, d < length (cs s) -> dec_at s' d = dec_at s d).
    { intros d Hd. unfold dec_at, s'; cbn [cs]. now rewrite nth_error_app1. }
    assert (X : lim s' k = lim s k \/ (lim s k = length (cs s) /\ lim s' k = S (length (cs s)) /\ ~ In k (quad_list q))).
    { unfold lim. rewrite LE0. destruct (in_dec Nat.eq_dec k (quad_list q)) as [Iq|Iq].
      - destruct (L s k) as [|h t] eqn:El; cbn [app].
        + left. unfold dec_at, s'; cbn [cs]. rewrite nth_error_app2, Nat.sub_diag by lia. reflexivity.
        + left. rewrite DE; auto. apply (G_ids s h k g). rewrite El; now left.
      - destruct (L s k) as [|h t] eqn:El; cbn [app].
        + right. rewrite NC. auto.
        + left. rewrite DE; auto. apply (G_ids s h k g). rewrite El; now left. }
    destruct X as [->|(E1 & E2 & N)]; auto. rewrite E1, E2.
    apply P_stable; [lia|rewrite app_length; simpl; lia|].
    intros d q' Hd Hq'. assert (d = length (cs s)) by lia. subst d.
    rewrite nth_error_app2 in Hq' by lia. rewrite <- RL, Nat.sub_diag in Hq'. injection Hq' as <-.
    intros <-. apply N. now left.
  - intros c x Hx. rewrite RE. apply CE in Hx as [Hx|[-> ->]]; [|exact Logic.I].
    assert (c < length (cs s)) by (apply nth_error_Some; congruence).
    assert (O := s_pc s si c x Hx). unfold okpc in *. rewrite !P_snoc by lia. exact O.
Qed.

Lemma good_mono : forall s e s', step s e = Some s' -> good s' -> good s.
Proof.
  assert (R : forall k (s : st I), run (release1 k s) = run s /\ prun (release1 k s) = prun s) by (intros; split; apply release1_misc).
  intros s e s' H [Hr Hp]. unfold good. destruct e as [q|c|c|c|c|c|c| | |n]; simpl in H.
  - destruct (run s) eqn:Er; [|discriminate]. simpl in H. destruct (okquad _ q); [|discriminate]. destruct (prun s) eqn:Ep; inv_opt; simpl in *; split; congruence.
  - destruct (nth_error (cs s) c) as [[q p]|]; [|discriminate]. destruct p as [[|]| | | | | | |]; try discriminate.
    destruct (run s) eqn:Er; [|inv_opt; simpl in *; congruence].
    repeat (match goal with H : match ?x with _ => _ end = _ |- _ => destruct x end); inv_opt; auto.
  - destruct (nth_error (cs s) c) as [[q p]|]; [|discriminate]. destruct p as [|[|? ?]|? ? ? ? [|? ?]| | | | |]; try discriminate; inv_opt; auto;
    rewrite ?(proj1 (R _ _)), ?(proj2 (R _ _)) in *; auto.
  - destruct (nth_error (cs s) c) as [[q p]|]; [|discriminate]. destruct p as [| |? ? ? ? [|? ?]| | | | |]; try discriminate.
    destruct (mk _ _ _ _ _); inv_opt; auto.
  - destruct (nth_error (cs s) c) as [[q p]|]; [|discriminate]. destruct p; try discriminate.
    destruct (ev _ _ _); [|inv_opt; simpl in *; discriminate].
    destruct (run s) eqn:Er; [|inv_opt; simpl in *; congruence]. destruct (better _ _); inv_opt; auto.
  - destruct (nth_error (cs s) c) as [[q p]|]; [|discriminate]. destruct p; try discriminate. inv_opt. auto.
  - destruct (nth_error (cs s) c) as [[q p]|]; [|discriminate]. destruct p; try discriminate. inv_opt.
    rewrite ?(proj1 (R _ _)), ?(proj2 (R _ _)) in *; auto.
  - inv_opt. discriminate.
  - inv_opt. discriminate.
  - destruct (nth_error (abq s) n); [|discriminate]. inv_opt. rewrite ?(proj1 (R _ _)), ?(proj2 (R _ _)) in *; auto.
Qed.

Lemma sample_val : forall s c q k, SI s -> nth_error (cs s) c = Some (mkChal q (PWait [])) -> In k (quad_list q) ->
  nth_error (P (reqs s) c) k = nth_error (pop s) k.
Proof.
  intros s c q k si E Hk.
  assert (Ac : A s c k) by (eexists; split; eauto).
  assert (Kb := A_bound s c k si Ac).
  destruct (head_of s c k si Kb Ac) as [t El].
  { intros (x & Hx & Hk'). rewrite E in Hx. injection Hx as <-. destruct Hk'. }
  rewrite (s_val s si k Kb). unfold lim. rewrite El. unfold dec_at. rewrite E. reflexivity.
Qed.

Lemma reqs_nth : forall s c q (p : pc I), nth_error (cs s) c = Some (mkChal q p) -> nth_error (reqs s) c = Some q.
Proof. intros s c q p E. unfold reqs. rewrite nth_error_map, E. reflexivity. Qed.

Lemma target_val : forall s c q p, SI s -> nth_error (cs s) c = Some (mkChal q p) -> nowait p -> decided (mkChal q p) = false ->
  In (kt q) (act (mkChal q p)) -> nth_error (pop s) (kt q) = nth_error (P (reqs s) c) (kt q).
Proof.
  intros s c q p si E W0 D Hk.
  assert (Ac : A s c (kt q)) by (eexists; split; eauto).
  assert (Kb := A_bound s c _ si Ac).
  destruct (head_of s c _ si Kb Ac) as [t El].
  { intros (x & Hx & Hk'). rewrite E in Hx. injection Hx as <-. now rewrite nowait_pend in Hk'. }
  rewrite (s_val s si _ Kb). unfold lim. rewrite El. unfold dec_at. rewrite E. now rewrite D.
Qed.

Lemma goto_eta : forall (s : st I) c p, goto s c p = mkSt (pop s) (locks s) (cs (goto s c p)) (run s) (prun s) (abq s).
Proof. reflexivity. Qed.

Lemma SI_step : forall s e s', SI s -> good s' -> step s e = Some s' -> SI s'.
Proof.
  intros s e s' si gd' H. assert (gd := good_mono s e s' H gd').
  assert (g' : G s') by (eapply G_step; eauto; apply si).
  destruct gd as [Hr Hp].
  destruct e as [q|c|c|c|c|c|c| | |n].
  - eapply SI_request; eauto. now split.
  - simpl in H. destruct (nth_error (cs s) c) as [[q p]|] eqn:E; [|discriminate]. destruct p as [[|]| | | | | | |]; try discriminate.
    rewrite Hr in H.
    assert (V : forall k, In k (quad_list q) -> nth_error (P (reqs s) c) k = nth_error (pop s) k) by (intros; eapply sample_val; eauto).
    assert (OQ : okq (length (pop s)) q) by (apply (g_quad s (s_g s si) c _ E)).
    assert (V1 := V (kt q) ltac:(unfold quad_list; simpl; auto)). assert (V2 := V (kb q) ltac:(unfold quad_list; simpl; auto)).
    assert (V3 := V (k0 q) ltac:(unfold quad_list; simpl; auto)). assert (V4 := V (k1 q) ltac:(unfold quad_list; simpl; auto)).
    destruct OQ as [_ OQ].
    assert (B1 := OQ (kt q) ltac:(unfold quad_list; simpl; auto)). assert (B2 := OQ (kb q) ltac:(unfold quad_list; simpl; auto)).
    assert (B3 := OQ (k0 q) ltac:(unfold quad_list; simpl; auto)). assert (B4 := OQ (k1 q) ltac:(unfold quad_list; simpl; auto)).
    apply nth_error_Some in B1, B2, B3, B4.
    destruct (nth_error (pop s) (kt q)) as [it|]; [|congruence]. destruct (nth_error (pop s) (kb q)) as [ib|]; [|congruence].
    destruct (nth_error (pop s) (k0 q)) as [i0|]; [|congruence]. destruct (nth_error (pop s) (k1 q)) as [i1|]; [|congruence].
    inv_opt. eapply SI_move; eauto; simpl; auto. intros k; unfold act; simpl. tauto.
    unfold okpc; simpl. auto.
  - simpl in H. destruct (nth_error (cs s) c) as [[q p]|] eqn:E; [|discriminate].
    assert (O := s_pc s si c _ E).
    destruct p as [|l|it ib i0 i1 l| | | | |]; try discriminate; destruct l as [|k l]; try discriminate; try (destruct O; fail).
    inv_opt.
    destruct (g_rel s (s_g s si) c _ _ _ _ _ _ E eq_refl) as [IR ND]. simpl in IR, ND. apply NoDup_cons_iff in ND. destruct ND as [ND _].
    assert (OQ := proj1 (g_quad s (s_g s si) c _ E)). simpl in OQ. unfold quad_list in OQ.
    eapply SI_release; eauto; simpl; auto.
    + intros k'. unfold act; simpl. intuition congruence.
    + unfold act; simpl. intros [Hk|Hk]; [|tauto]. subst k.
      inversion OQ as [|? ? N1 N2]. apply N1. apply IR. now left.
    + right. intros ->. inversion OQ as [|? ? N1 N2]. apply N1. apply IR. now left.
  - simpl in H. destruct (nth_error (cs s) c) as [[q p]|] eqn:E; [|discriminate].
    assert (O := s_pc s si c _ E).
    destruct p as [| |it ib i0 i1 l| | | | |]; try discriminate; destruct l as [|k l]; try discriminate.
    unfold okpc in O; simpl in O. destruct O as (O1 & O2 & O3 & O4).
    assert (TV := target_val s c q _ si E Logic.I eq_refl ltac:(now left)).
    assert (PS := P_S (reqs s) c q (reqs_nth s c q _ E)).
    destruct (mk c it ib i0 i1) as [|ch|] eqn:Em; inv_opt.
    + rewrite goto_eta. eapply SI_decide; eauto; simpl; auto; try exact Logic.I.
      rewrite TV, PS. unfold seq_step. now rewrite O1, O2, O3, O4, Em.
    + eapply SI_move; eauto; simpl; auto. { intros; unfold act; simpl; tauto. } unfold okpc; simpl. eauto 10.
    + rewrite goto_eta. eapply SI_decide; eauto; simpl; auto; try exact Logic.I.
      rewrite TV, PS. unfold seq_step. now rewrite O1, O2, O3, O4, Em.
  - simpl in H. destruct (nth_error (cs s) c) as [[q p]|] eqn:E; [|discriminate].
    assert (O := s_pc s si c _ E).
    destruct p as [| | |it ch| | | |]; try discriminate.
    unfold okpc in O; simpl in O. destruct O as (O1 & ib & i0 & i1 & O2 & O3 & O4 & Em).
    assert (TV := target_val s c q _ si E Logic.I eq_refl ltac:(now left)).
    assert (PS := P_S (reqs s) c q (reqs_nth s c q _ E)). unfold seq_step in PS. rewrite O1, O2, O3, O4, Em in PS.
    assert (GT : G (goto s c PRelT)) by (eapply G_goto; [apply si|eauto|simpl; auto..]).
    destruct (ev c it ch) as [r|] eqn:Ee.
    + rewrite Hr in H. destruct (better r it) eqn:Eb; inv_opt.
      * change (SI (mkSt (upd (kt q) r (pop s)) (locks s) (cs (goto s c PRelT)) true (prun s) (abq s))). rewrite <- Hr.
        eapply SI_decide; eauto; simpl; auto; try exact Logic.I.
        -- apply upd_length.
        -- intros k Hk. apply upd_other. congruence.
        -- rewrite PS. assert (kt q < length (pop s)) by (apply nth_error_Some; congruence).
           rewrite upd_same by auto. rewrite upd_same; auto. rewrite P_len, <- (s_len s si). auto.
      * assert (X : forall p, act (mkChal q p) = [kt q] -> nowait p -> decided (mkChal q p) = true -> okpc (reqs s) c (mkChal q p) -> G (goto s c p) -> SI (goto s c p)).
        { intros p P1 P2 P3 P4 P5. rewrite goto_eta. eapply SI_decide; eauto; simpl; auto. now rewrite TV, PS. }
        destruct xSSE; apply X; simpl; auto; exact Logic.I.
    + inv_opt. destruct gd'; discriminate.
  - simpl in H. destruct (nth_error (cs s) c) as [[q p]|] eqn:E; [|discriminate].
    destruct p; try discriminate. inv_opt.
    destruct (histcrash c); (eapply SI_move; eauto; simpl; auto; [intros; unfold act; simpl; tauto|exact Logic.I]).
  - simpl in H. destruct (nth_error (cs s) c) as [[q p]|] eqn:E; [|discriminate].
    destruct p; try discriminate. inv_opt.
    eapply SI_release; eauto; simpl; auto; try exact Logic.I.
    intros k'. unfold act; simpl. intuition congruence.
  - simpl in H; inv_opt. destruct gd'; discriminate.
  - simpl in H; inv_opt. destruct gd'; discriminate.
  - simpl in H. rewrite (s_abq s si) in H. destruct n; discriminate.
Qed.

Lemma SI_exec : forall es s s', SI s -> good s' -> exec s es = Some s' -> SI s'.
Proof.
  induction es as [|e es IH]; simpl; intros s s' si gd H; [now inv_opt|].
  destruct (step s e) as [s1|] eqn:E; [|discriminate].
  assert (gd1 : good s1).
  { clear - H gd. revert s1 H. induction es as [|e es IH]; simpl; intros s1 H; [now inv_opt|].
    destruct (step s1 e) as [s2|] eqn:E; [|discriminate]. eapply good_mono; eauto. }
  apply (IH s1 s'); auto. eapply SI_step; eauto.
Qed.

End Proofs.
