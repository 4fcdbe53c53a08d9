(** * Invariants of a run with its adaptation (AdaptModel.v) *)
From Coq Require Import List Bool Arith ZArith Lia Permutation.
From Verif Require Import Flt FltMore Py FManModel RunModel ChalModel ChalProofs ChalSerial ChalLive ChalProps LoopModel LoopProofs LoopProps AdaptModel.
Import ListNotations.
Local Open Scope nat_scope.
Ltac inv_opt := match goal with H : Some _ = Some _ |- _ => injection H as <- end.

(** ** lists *)
Definition o2l {X} (x : option X) : list X := match x with Some x => [x] | None => [] end.
Definition somes {X} (l : list (nat * option X)) : list X := flat_map (fun x => o2l (snd x)) l.
Lemma somes_app : forall {X} (l l' : list (nat * option X)), somes (l ++ l') = somes l ++ somes l'.
Proof. intros. unfold somes. now rewrite flat_map_app. Qed.
Lemma map_upd : forall {X Y} (f : X -> Y) k x l, map f (upd k x l) = upd k (f x) (map f l).
Proof. intros X Y f k x l. revert k. induction l as [|y l IH]; intros [|k]; simpl; auto. now rewrite IH. Qed.
Lemma upd_id : forall {X} k (x : X) l, nth_error l k = Some x -> upd k x l = l.
Proof. intros X k x l. revert k. induction l as [|y l IH]; intros [|k]; simpl; intros H; try discriminate; [now inversion H|]. now rewrite IH. Qed.

(** ** how far a challenge is: 1: being written to the history; 2: decided; 3: failed; 0: before *)
Section Classes.
Context {I : Type}.
Definition class (p : pc I) : nat :=
  match p with PHist => 1 | PRelT | PDone => 2 | PFail => 3 | _ => 0 end.
Definition cls (s : st I) : list nat := map (fun x => class (cpc x)) (cs s).
Lemma cls_goto : forall s k x p, nth_error (cs s) k = Some x -> cls (goto s k p) = upd k (class p) (cls s).
Proof. intros s k x p H. unfold cls, goto, with_cs, set_pc; simpl. rewrite H. now rewrite map_upd. Qed.
Lemma cls_release1 : forall k s, cls (release1 k s) = cls s.
Proof.
  intros k s. unfold release1. destruct (nth_error (locks s) k) as [[|h rest]|]; auto. unfold cls; simpl.
  destruct rest as [|h' rest]; auto. destruct (nth_error (cs s) h') as [x|] eqn:E; auto. rewrite map_upd. apply upd_id.
  rewrite nth_error_map, E. simpl. f_equal. unfold grant. destruct x as [q p]; destruct p; reflexivity.
Qed.
Lemma cls_nth : forall s k x, nth_error (cs s) k = Some x -> nth_error (cls s) k = Some (class (cpc x)).
Proof. intros s k x H. unfold cls. now rewrite nth_error_map, H. Qed.
Lemma cls_len : forall s, length (cls s) = length (cs s).
Proof. intros. apply map_length. Qed.
End Classes.

Section Proofs.
Context {I : Type}.
Variable mkF : fman -> nat -> I -> I -> I -> I -> mkres I.
Variable ev : nat -> I -> I -> option I.
Variable better : I -> I -> bool.
Variable histcrash : nat -> bool.
Variable xSSE : bool.
Variable rir : I -> I -> option Z.
Variable npsin : f64 -> f64.
Variables up0 up1 : f64.
Variable o : opts.
Variable p0 : list I.
Variables (fm : fman) (sc : score) (b0 : option I).
Notation N := (length p0).
Notation new_best := (new_best better).
Notation ratios := (ratios better rir).
Notation generation := (generation npsin up0 up1 o).

(** ** the calls of a list of reports *)
Fixpoint calls (b : option I) (l : list (I * I)) : list Z :=
  match l with
  | [] => []
  | (r, it) :: l => ratios b r it ++ calls (if new_best b r then Some r else b) l
  end.
Fixpoint after (b : option I) (l : list (I * I)) : option I :=
  match l with [] => b | (r, it) :: l => after (if new_best b r then Some r else b) l end.
Lemma calls_app : forall l l' b, calls b (l ++ l') = calls b l ++ calls (after b l) l'.
Proof. induction l as [|[r it] l IH]; intros l' b; simpl; auto. now rewrite IH, app_assoc. Qed.
Lemma after_app : forall l l' b, after b (l ++ l') = after (after b l) l'.
Proof. induction l as [|[r it] l IH]; intros l' b; simpl; auto. Qed.

(** ** what one challenge reports, when the challenges are performed one by one *)
Section Fixed.
Variable mk : nat -> I -> I -> I -> I -> mkres I.
Notation step := (step mk ev better histcrash xSSE).
Notation exec := (exec mk ev better histcrash xSSE).
Notation lstep := (lstep mk ev better histcrash xSSE npsin up0 up1 o).
Notation lexec := (lexec mk ev better histcrash xSSE npsin up0 up1 o).
Notation astepm := (astepm ev better histcrash xSSE rir npsin up0 up1 o mk).
Notation aexecm := (aexecm ev better histcrash xSSE rir npsin up0 up1 o mk).
Notation LInv := (LInv mk ev better histcrash xSSE o p0).
Notation SI := (SI mk ev better p0).
Notation P := (P mk ev better p0).

(** the evaluated challenger and its target *)
Definition outcome1 (c : nat) (q : quad) (p : list I) : option (I * I) :=
  match nth_error p (kt q), nth_error p (kb q), nth_error p (k0 q), nth_error p (k1 q) with
  | Some it, Some ib, Some i0, Some i1 =>
    match mk c it ib i0 i1 with
    | Candidate ch => match ev c it ch with Some r => Some (r, it) | None => None end
    | _ => None
    end
  | _, _, _, _ => None
  end.
Definition outcome (qs : list quad) (c : nat) : option (I * I) :=
  match nth_error qs c with Some q => outcome1 c q (P qs c) | None => None end.
Lemma outcome_snoc : forall qs q c, c < length qs -> outcome (qs ++ [q]) c = outcome qs c.
Proof. intros qs q c H. unfold outcome. rewrite nth_error_app1 by auto. now rewrite P_snoc by lia. Qed.

(** ** the reports of the current generation *)
Record RI (qs : list quad) (f0 : nat) (cl : list nat) (bb : option I) (ca : list Z) (b : option I)
  (pend : list (nat * (I * I))) (rep : list (nat * option (I * I))) : Prop := mkRI {
  ri_calls : ca = calls bb (somes rep);
  ri_best : b = after bb (somes rep);
  ri_nodup : NoDup (map fst rep);
  ri_ndp : NoDup (map fst pend);
  ri_rep : forall c z, In (c, z) rep -> f0 <= c < length cl /\ z = outcome qs c;
  ri_pend : forall c z, In (c, z) pend -> f0 <= c < length cl /\ Some z = outcome qs c;
  ri_cls : forall c v, f0 <= c -> nth_error cl c = Some v -> (v = 2 <-> In c (map fst rep)) /\ (v = 1 <-> In c (map fst pend));
  ri_len : length qs = length cl
}.
Lemma RI_start : forall qs f0 cl b, length qs = length cl -> length cl = f0 -> RI qs f0 cl b [] b [] [].
Proof.
  intros qs f0 cl b H1 H2. constructor; simpl; auto; try constructor; try contradiction.
  - assert (nth_error cl c <> None) by congruence. apply nth_error_Some in H3. lia.
  - assert (nth_error cl c <> None) by congruence. apply nth_error_Some in H3. lia.
Qed.
Lemma RI_same : forall qs f0 cl bb ca b pend rep k v v', RI qs f0 cl bb ca b pend rep ->
  nth_error cl k = Some v -> (v = v' \/ (v <> 1 /\ v <> 2 /\ v' <> 1 /\ v' <> 2)) -> RI qs f0 (upd k v' cl) bb ca b pend rep.
Proof.
  intros qs f0 cl bb ca b pend rep k v v' [R1 R2 R3 R4 R5 R6 R7 R8] Hk Hv.
  constructor; auto; try (intros c z H; rewrite upd_length; auto).
  - intros c w Hc Hw. rewrite upd_nth_error, Hk in Hw. destruct (Nat.eqb_spec c k) as [->|Nk]; auto.
    assert (w = v') by congruence. subst w. destruct (R7 k v Hc Hk) as [X Y].
    destruct Hv as [->|(V1 & V2 & V3 & V4)]; auto. split; split; intros; try congruence; exfalso; [apply V2|apply V1]; tauto.
  - now rewrite upd_length.
Qed.
Lemma RI_rep0 : forall qs f0 cl bb ca b pend rep k z, RI qs f0 cl bb ca b pend rep ->
  nth_error cl k = Some 0 -> f0 <= k -> z = outcome qs k ->
  RI qs f0 (upd k 2 cl) bb (ca ++ calls b (o2l z)) (after b (o2l z)) pend (rep ++ [(k, z)]).
Proof.
  intros qs f0 cl bb ca b pend rep k z [R1 R2 R3 R4 R5 R6 R7 R8] Hk Hf Hz.
  assert (NR : ~ In k (map fst rep)) by (intros X; apply (proj2 (proj1 (R7 k 0 Hf Hk))) in X; discriminate).
  assert (NP : ~ In k (map fst pend)) by (intros X; apply (proj2 (proj2 (R7 k 0 Hf Hk))) in X; discriminate).
  assert (Hl : k < length cl) by (apply nth_error_Some; congruence).
  assert (SS : somes (rep ++ [(k, z)]) = somes rep ++ o2l z) by (rewrite somes_app; unfold somes at 2; simpl; now rewrite app_nil_r).
  constructor; auto.
  - rewrite SS, calls_app. congruence.
  - rewrite SS, after_app. congruence.
  - rewrite map_app. simpl. apply (Permutation_NoDup (Permutation_cons_append (map fst rep) k)). now constructor.
  - intros c y H. rewrite upd_length. apply in_app_or in H. destruct H as [H|[H|[]]]; auto. injection H as <- <-. auto.
  - intros c y H. rewrite upd_length. auto.
  - intros c w Hc Hw. rewrite upd_nth_error, Hk in Hw. rewrite map_app, in_app_iff. simpl. destruct (Nat.eqb_spec c k) as [->|Nk].
    + assert (w = 2) by congruence. subst w. split; split; intros; auto; [discriminate|contradiction].
    + destruct (R7 c w Hc Hw) as [X Y]. split; auto. rewrite X. split; [auto|]. intros [Z|[Z|[]]]; auto. congruence.
  - now rewrite upd_length.
Qed.
Lemma RI_pend0 : forall qs f0 cl bb ca b pend rep k z, RI qs f0 cl bb ca b pend rep ->
  nth_error cl k = Some 0 -> f0 <= k -> Some z = outcome qs k ->
  RI qs f0 (upd k 1 cl) bb ca b (pend ++ [(k, z)]) rep.
Proof.
  intros qs f0 cl bb ca b pend rep k z [R1 R2 R3 R4 R5 R6 R7 R8] Hk Hf Hz.
  assert (NR : ~ In k (map fst rep)) by (intros X; apply (proj2 (proj1 (R7 k 0 Hf Hk))) in X; discriminate).
  assert (NP : ~ In k (map fst pend)) by (intros X; apply (proj2 (proj2 (R7 k 0 Hf Hk))) in X; discriminate).
  assert (Hl : k < length cl) by (apply nth_error_Some; congruence).
  constructor; auto.
  - rewrite map_app. simpl. apply (Permutation_NoDup (Permutation_cons_append (map fst pend) k)). now constructor.
  - intros c y H. rewrite upd_length. auto.
  - intros c y H. rewrite upd_length. apply in_app_or in H. destruct H as [H|[H|[]]]; auto. injection H as <- <-. auto.
  - intros c w Hc Hw. rewrite upd_nth_error, Hk in Hw. rewrite map_app, in_app_iff. simpl. destruct (Nat.eqb_spec c k) as [->|Nk].
    + assert (w = 1) by congruence. subst w. split; split; intros; auto; [discriminate|contradiction].
    + destruct (R7 c w Hc Hw) as [X Y]. split; auto. rewrite Y. split; [auto|]. intros [Z|[Z|[]]]; auto. congruence.
  - now rewrite upd_length.
Qed.
Definition without (k : nat) (pend : list (nat * (I * I))) := filter (fun x => negb (fst x =? k)) pend.
Lemma without_in : forall k pend c, In c (map fst (without k pend)) <-> In c (map fst pend) /\ c <> k.
Proof.
  intros k pend c. unfold without. split.
  - intros H. apply in_map_iff in H. destruct H as (x & <- & H). apply filter_In in H. destruct H as [H1 H2].
    split; [now apply in_map|]. intros E. rewrite E, Nat.eqb_refl in H2. discriminate.
  - intros [H Hk]. apply in_map_iff in H. destruct H as (x & E & H). subst c. apply in_map, filter_In. split; auto.
    apply negb_true_iff. now apply Nat.eqb_neq.
Qed.
Lemma without_nodup : forall k pend, NoDup (map fst pend) -> NoDup (map fst (without k pend)).
Proof.
  intros k pend. induction pend as [|[c z] pend IH]; simpl; intros H; [constructor|]. inversion H as [|? ? H1 H2]; subst.
  destruct (negb _) eqn:E; auto. simpl. constructor; auto. intros X. apply H1. now apply (proj1 (without_in k pend c)) in X.
Qed.
Lemma RI_drop : forall qs f0 cl bb ca b pend rep k, RI qs f0 cl bb ca b pend rep ->
  nth_error cl k = Some 1 -> RI qs f0 (upd k 3 cl) bb ca b (without k pend) rep.
Proof.
  intros qs f0 cl bb ca b pend rep k [R1 R2 R3 R4 R5 R6 R7 R8] Hk.
  constructor; auto; try (intros c z H; rewrite upd_length; auto).
  - now apply without_nodup.
  - apply (R6 c z). unfold without in H. now apply filter_In in H.
  - intros c w Hc Hw. rewrite upd_nth_error, Hk in Hw. rewrite without_in. destruct (Nat.eqb_spec c k) as [->|Nk].
    + assert (w = 3) by congruence. subst w. split; split; intros; try discriminate; try tauto.
      exfalso. apply (proj1 (R7 k 1 Hc Hk)) in H. discriminate.
    + destruct (R7 c w Hc Hw) as [X Y]. split; auto. tauto.
  - now rewrite upd_length.
Qed.
Lemma RI_hist : forall qs f0 cl bb ca b pend rep k z, RI qs f0 cl bb ca b pend rep ->
  nth_error cl k = Some 1 -> In (k, z) pend ->
  RI qs f0 (upd k 2 cl) bb (ca ++ calls b [z]) (after b [z]) (without k pend) (rep ++ [(k, Some z)]).
Proof.
  intros qs f0 cl bb ca b pend rep k z H Hk Hz. assert (X := RI_drop _ _ _ _ _ _ _ _ k H Hk).
  assert (Hf := ri_pend _ _ _ _ _ _ _ _ H k z Hz). destruct Hf as [Hf Ho].
  assert (X3 : nth_error (upd k 3 cl) k = Some 3) by (rewrite upd_nth_error, Nat.eqb_refl, Hk; reflexivity).
  assert (Y := RI_same _ _ _ _ _ _ _ _ k 3 0 X X3 ltac:(right; repeat split; discriminate)).
  assert (UU : forall (a b0 : nat) l, upd k a (upd k b0 l) = upd k a l).
  { clear. intros a b1 l. revert k. induction l as [|y l IH]; intros [|k]; simpl; auto. now rewrite IH. }
  rewrite UU in Y.
  assert (Z := RI_rep0 _ _ _ _ _ _ _ _ k (Some z) Y ltac:(rewrite upd_nth_error, Nat.eqb_refl, Hk; reflexivity) ltac:(lia) Ho).
  rewrite UU in Z. exact Z.
Qed.
Lemma RI_req : forall qs f0 cl bb ca b pend rep q, RI qs f0 cl bb ca b pend rep ->
  RI (qs ++ [q]) f0 (cl ++ [0]) bb ca b pend rep.
Proof.
  intros qs f0 cl bb ca b pend rep q [R1 R2 R3 R4 R5 R6 R7 R8].
  constructor; auto.
  - intros c z H. rewrite app_length; simpl. destruct (R5 c z H). rewrite outcome_snoc by lia. split; [lia|auto].
  - intros c z H. rewrite app_length; simpl. destruct (R6 c z H). rewrite outcome_snoc by lia. split; [lia|auto].
  - intros c w Hc Hw. destruct (le_lt_dec (length cl) c) as [L|L].
    + assert (w = 0).
      { rewrite nth_error_app2 in Hw by auto. destruct (c - length cl) as [|[|n]]; simpl in Hw; congruence. }
      subst w. split; split; intros X; try discriminate; exfalso; apply in_map_iff in X; destruct X as ((c', z) & E & X); simpl in E; subst c'.
      * destruct (R5 _ _ X). lia.
      * destruct (R6 _ _ X). lia.
    + rewrite nth_error_app1 in Hw by auto. auto.
  - rewrite !app_length. simpl. congruence.
Qed.
(** all of the generation's challenges done *)
Lemma RI_end : forall qs f0 cl bb ca b pend rep n, RI qs f0 cl bb ca b pend rep -> length cl = f0 + n ->
  (forall c, f0 <= c -> c < length cl -> nth_error cl c = Some 2) ->
  Permutation (somes rep) (flat_map (fun c => o2l (outcome qs c)) (seq f0 n)).
Proof.
  intros qs f0 cl bb ca b pend rep n [R1 R2 R3 R4 R5 R6 R7 R8] Hn Hd.
  assert (E : somes rep = flat_map (fun c => o2l (outcome qs c)) (map fst rep)).
  { clear - R5. unfold somes. induction rep as [|[c z] rep IH]; auto. simpl. f_equal.
    - destruct (R5 c z ltac:(now left)). congruence.
    - apply IH. intros. apply R5. now right. }
  rewrite E. apply Permutation_flat_map. apply NoDup_Permutation; auto using seq_NoDup. intros c. rewrite in_seq. split.
  - intros H. apply in_map_iff in H. destruct H as ((c', z) & <- & H). destruct (R5 _ _ H). simpl. lia.
  - intros H. apply (R7 c 2 ltac:(lia)); auto. apply Hd; lia.
Qed.

Lemma LInv_SI : forall s, LInv s -> good (lch s) -> SI (lch s).
Proof.
  intros s [R _ _] gd. destruct (reach_exec _ _ _ _ _ _ _ R) as [es E].
  eapply SI_exec; [apply SI_init; split; reflexivity|exact gd|exact E].
Qed.

(** one event at the challenges *)
Lemma note_step : forall s e s' f0 bb rep, SI (lch (al s)) ->
  norequest e = true -> step (lch (al s)) e <> None -> astepm s (LC e) = Some s' -> good (lch (al s')) ->
  doneto (lch (al s)) f0 ->
  RI (reqs (lch (al s))) f0 (cls (lch (al s))) bb (acalls s) (abest s) (apend s) rep ->
  exists rep', RI (reqs (lch (al s'))) f0 (cls (lch (al s'))) bb (acalls s') (abest s') (apend s') rep'.
Proof.
  intros s e s' f0 bb rep si Hn Hs H gd DT ri.
  assert (C : exists c', step (lch (al s)) e = Some c' /\ lstep (al s) (LC e) = Some (mkL c' (lph (al s)) (lkg (al s)) (lrs (al s)) (ltr (al s)))).
  { destruct (step (lch (al s)) e) as [c'|] eqn:E; [|congruence]. exists c'. split; auto. unfold LoopModel.lstep. rewrite E. destruct e; try discriminate; reflexivity. }
  destruct C as (c' & Hc & Hl). unfold AdaptModel.astepm in H. rewrite Hl in H.
  assert (gd0 : good (lch (al s))).
  { eapply good_mono; [exact Hc|]. destruct e; try discriminate; try (injection H as <-; exact gd).
    - simpl in H. assert (X : lch (al s') = c'). 
      { unfold report in H. repeat (match goal with H : context [match ?x with _ => _ end] |- _ => destruct x end; try (injection H as <-; reflexivity); try discriminate). }
      now rewrite X in gd.
    - simpl in H. assert (X : lch (al s') = c').
      { unfold report in H. repeat (match goal with H : context [match ?x with _ => _ end] |- _ => destruct x end; try (injection H as <-; reflexivity); try discriminate). }
      now rewrite X in gd. }
  destruct gd0 as [Gr Gp]. rewrite Gp in H.
  assert (RQ : reqs c' = reqs (lch (al s))) by (apply (norequest_cq mk ev better histcrash xSSE) with (e := e); auto).
  assert (F0 : forall k x, nth_error (cs (lch (al s))) k = Some x -> cpc x <> PDone -> f0 <= k).
  { intros k x Hx Hp. destruct (le_lt_dec f0 k); auto. exfalso. apply Hp. exact (DT k x l Hx). }
  assert (OC : forall k q it ch, nth_error (cs (lch (al s))) k = Some (mkChal q (PEval it ch)) ->
     outcome (reqs (lch (al s))) k = match ev k it ch with Some r => Some (r, it) | None => None end).
  { intros k q it ch Hk. assert (O := s_pc _ _ _ _ _ si k _ Hk). unfold okpc in O; simpl in O. destruct O as (O1 & ib & i0 & i1 & O2 & O3 & O4 & Em).
    unfold outcome. rewrite (reqs_nth _ _ _ _ Hk). unfold outcome1. now rewrite O1, O2, O3, O4, Em. }
  destruct e as [q|k|k|k|k|k|k| | |n]; try discriminate; simpl in Hc.
  - injection H as <-. simpl in *. exists rep. rewrite RQ.
    destruct (nth_error (cs (lch (al s))) k) as [[q p]|] eqn:E; [|discriminate]. destruct p as [[|]| | | | | | |]; try discriminate.
    assert (X : exists p, c' = goto (lch (al s)) k p /\ class p = 0).
    { rewrite Gr in Hc. destruct (nth_error (pop (lch (al s))) (kt q)), (nth_error (pop (lch (al s))) (kb q)), (nth_error (pop (lch (al s))) (k0 q)), (nth_error (pop (lch (al s))) (k1 q)); inv_opt; eexists; split; reflexivity. }
    destruct X as (p & -> & Hp). rewrite (cls_goto _ _ _ p E), Hp. eapply RI_same; eauto using cls_nth.
  - injection H as <-. simpl in *. exists rep. rewrite RQ.
    destruct (nth_error (cs (lch (al s))) k) as [[q p]|] eqn:E; [|discriminate]. assert (O := s_pc _ _ _ _ _ si k _ E). 
    destruct p as [|l|it ib i0 i1 l| | | | |]; try discriminate; try (destruct O; fail). destruct l as [|k' l]; try discriminate. inv_opt.
    rewrite cls_release1, (cls_goto _ _ _ _ E). eapply RI_same; eauto using cls_nth.
  - injection H as <-. simpl in *. rewrite RQ.
    destruct (nth_error (cs (lch (al s))) k) as [[q p]|] eqn:E; [|discriminate]. assert (O := s_pc _ _ _ _ _ si k _ E). 
    destruct p as [|l|it ib i0 i1 l| | | | |]; try discriminate. destruct l as [|k' l]; try discriminate.
    unfold okpc in O; simpl in O. destruct O as (O1 & O2 & O3 & O4).
    assert (OM : mk k it ib i0 i1 = Rejected -> outcome (reqs (lch (al s))) k = None).
    { intros Em. unfold outcome. rewrite (reqs_nth _ _ _ _ E). unfold outcome1. now rewrite O1, O2, O3, O4, Em. }
    destruct (mk k it ib i0 i1) as [|ch|] eqn:Em; inv_opt; rewrite (cls_goto _ _ _ _ E).
    + exists (rep ++ [(k, None)]). assert (Y := RI_rep0 _ _ _ _ _ _ _ _ k None ri (cls_nth _ _ _ E) (F0 k _ E ltac:(discriminate)) (eq_sym (OM eq_refl))).
      simpl in Y. now rewrite app_nil_r in Y.
    + exists rep. eapply RI_same; eauto using cls_nth.
    + exists rep. eapply RI_same; eauto using cls_nth. right. repeat split; discriminate.
  - simpl in H. destruct (nth_error (cs (lch (al s))) k) as [[q p]|] eqn:E; [|discriminate].
    destruct p as [| | |it ch| | | |]; try discriminate.
    assert (O := OC k q it ch E). destruct (ev k it ch) as [r|] eqn:Ee.
    + rewrite Gr in H, Hc. assert (F := F0 k _ E ltac:(discriminate)).
      assert (X : better r it || xSSE = true -> cls c' = upd k 2 (cls (lch (al s)))).
      { intros B. destruct (better r it); inv_opt.
        - apply (cls_goto _ _ _ (@PRelT I) E).
        - simpl in B. rewrite B. apply (cls_goto _ _ _ (@PRelT I) E). }
      destruct (better r it || xSSE) eqn:B.
      * injection H as <-. unfold report in *; simpl in *. rewrite RQ, (X eq_refl). exists (rep ++ [(k, Some (r, it))]).
        assert (Y := RI_rep0 _ _ _ _ _ _ _ _ k (Some (r, it)) ri (cls_nth _ _ _ E) F (eq_sym O)). simpl in Y. now rewrite app_nil_r in Y.
      * injection H as <-; simpl in *. apply orb_false_iff in B. destruct B as [B1 B2]. rewrite B1, B2 in Hc. inv_opt.
        rewrite RQ, (cls_goto _ _ _ (@PHist I) E). exists rep. apply RI_pend0; auto. apply (cls_nth _ _ _ E).
    + inv_opt. injection H as <-. destruct gd; discriminate.
  - simpl in H. destruct (nth_error (cs (lch (al s))) k) as [[q p]|] eqn:E; [|discriminate].
    destruct p; try discriminate. inv_opt. assert (C1 := cls_nth _ _ _ E). simpl in C1.
    destruct (histcrash k).
    + injection H as <-. simpl in *. rewrite RQ, (cls_goto _ _ _ (@PFail I) E). exists rep. apply RI_drop; auto.
    + assert (F := F0 k _ E ltac:(discriminate)).
      assert (Z := proj1 (proj2 (ri_cls _ _ _ _ _ _ _ _ ri k 1 F C1)) eq_refl).
      destruct (find (fun x => fst x =? k) (apend s)) as [[k' [r it]]|] eqn:Ef.
      * apply find_some in Ef. destruct Ef as [Ef1 Ef2]. simpl in Ef2. apply Nat.eqb_eq in Ef2. subst k'.
        injection H as <-. unfold report in *; simpl in *. rewrite RQ, (cls_goto _ _ _ (@PRelT I) E). exists (rep ++ [(k, Some (r, it))]).
        assert (Y := RI_hist _ _ _ _ _ _ _ _ k (r, it) ri C1 Ef1). simpl in Y. now rewrite app_nil_r in Y.
      * exfalso. apply in_map_iff in Z. destruct Z as ((k', z) & E1 & Z). simpl in E1. subst k'.
        assert (Y := find_none _ _ Ef _ Z). simpl in Y. now rewrite Nat.eqb_refl in Y.
  - injection H as <-. simpl in *. exists rep. rewrite RQ.
    destruct (nth_error (cs (lch (al s))) k) as [[q p]|] eqn:E; [|discriminate]. destruct p; try discriminate. inv_opt.
    rewrite cls_release1, (cls_goto _ _ _ _ E). eapply RI_same; eauto using cls_nth.
  - injection H as <-. inv_opt. destruct gd; discriminate.
  - injection H as <-. inv_opt. destruct gd; discriminate.
  - rewrite (s_abq _ _ _ _ _ si) in Hc. destruct n; discriminate.
Qed.
End Fixed.

(** ** challenges that are done do not care how challengers are made *)
Notation lstep := (fun mk => lstep mk ev better histcrash xSSE npsin up0 up1 o).
Notation lexec := (fun mk => lexec mk ev better histcrash xSSE npsin up0 up1 o).
Notation astepm := (astepm ev better histcrash xSSE rir npsin up0 up1 o).
Notation aexecm := (aexecm ev better histcrash xSSE rir npsin up0 up1 o).
Notation astep := (astep mkF ev better histcrash xSSE rir npsin up0 up1 o).
Notation aexec := (aexec mkF ev better histcrash xSSE rir npsin up0 up1 o).
Notation gen_end := (gen_end npsin up0 up1 o).
Notation start := (ainit o p0 fm sc b0).
Notation LInv mk := (LInv mk ev better histcrash xSSE o p0).

Lemma lstep_ext : forall mk1 mk2 s e,
  (forall c x it ib i0 i1, nth_error (cs (lch s)) c = Some x -> cpc x <> PDone -> mk1 c it ib i0 i1 = mk2 c it ib i0 i1) ->
  lstep mk1 s e = lstep mk2 s e.
Proof.
  intros mk1 mk2 s e H. destruct e as [e| | | | | | | ]; try reflexivity. destruct e as [ | | |k| | | | | | ]; try reflexivity.
  cbn. destruct (nth_error (cs (lch s)) k) as [[q p]|] eqn:E; auto. destruct p as [| |it ib i0 i1 l| | | | |]; auto. destruct l; auto.
  rewrite (H k _ it ib i0 i1 E ltac:(discriminate)). reflexivity.
Qed.
Lemma astepm_ext : forall mk1 mk2 s e,
  (forall c x it ib i0 i1, nth_error (cs (lch (al s))) c = Some x -> cpc x <> PDone -> mk1 c it ib i0 i1 = mk2 c it ib i0 i1) ->
  astepm mk1 s e = astepm mk2 s e.
Proof.
  intros mk1 mk2 s e H. assert (X : forall e, lstep mk1 (al s) e = lstep mk2 (al s) e) by (intros; now apply lstep_ext).
  cbv beta in X. unfold AdaptModel.astepm. destruct e; now rewrite X.
Qed.

Definition jn (e : levent) : list (f64 * fout) := match e with LJoin _ u f => [(u, f)] | _ => [] end.
(** the draw of the inquiry and what the callback did, generation by generation *)
Definition joins (es : list levent) : list (f64 * fout) := flat_map jn es.
Lemma joins_snoc : forall es e, joins (es ++ [e]) = joins es ++ jn e.
Proof. intros. unfold joins. rewrite flat_map_app. simpl. now rewrite app_nil_r. Qed.
Lemma lrequests_snoc : forall es e, lrequests (es ++ [e]) = lrequests es ++ lreq e.
Proof. intros. unfold lrequests. rewrite flat_map_app. simpl. now rewrite app_nil_r. Qed.

Lemma astepm_lstep : forall mk s e s', astepm mk s e = Some s' ->
  exists e', lstep mk (al s) e' = Some (al s') /\ lreq e' = lreq e /\ jn e' = jn e /\
    (forall r u f, e = LJoin r u f -> e' = LJoin (acalls s) u f /\ abest s' = abest s /\ acalls s' = [] /\ apend s' = []) /\
    ((forall r u f, e <> LJoin r u f) -> e' = e).
Proof.
  intros mk s e s' H. unfold AdaptModel.astepm in H. destruct e as [e| | | | | |r u f|].
  7:{ exists (LJoin (acalls s) u f). destruct (LoopModel.lstep _ _ _ _ _ _ _ _ _ _ _) as [l|]; [|discriminate]. inv_opt.
      repeat split; auto; try congruence. }
  all: match goal with H : match LoopModel.lstep _ _ _ _ _ _ _ _ _ _ ?ee with _ => _ end = _ |- _ => exists ee end.
  all: destruct (LoopModel.lstep _ _ _ _ _ _ _ _ _ _ _) as [l|]; [|discriminate].
  all: assert (X : al s' = l); [|rewrite X; repeat split; auto; discriminate].
  all: try (inv_opt; reflexivity).
  destruct e; try (inv_opt; reflexivity); unfold report in H;
    repeat (match goal with H : context [match ?x with _ => _ end] |- _ => destruct x end; try (injection H as <-; reflexivity); try discriminate).
Qed.
Lemma aexecm_lexec : forall mk es s s', aexecm mk s es = Some s' ->
  exists es', lexec mk (al s) es' = Some (al s') /\ lrequests es' = lrequests es /\ joins es' = joins es.
Proof.
  intros mk. induction es as [|e es IH]; simpl; intros s s' H; [inv_opt; now exists []|].
  destruct (astepm mk s e) as [s1|] eqn:E; [|discriminate]. destruct (astepm_lstep _ _ _ _ E) as (e' & A & B & C & _).
  destruct (IH _ _ H) as (es' & A' & B' & C'). exists (e' :: es'). cbv beta in *. cbn [LoopModel.lexec]. rewrite A. split; auto.
  simpl. unfold lrequests, joins in *. split; simpl; congruence.
Qed.
Lemma aexecm_app : forall mk es es' s, aexecm mk s (es ++ es') = match aexecm mk s es with Some s1 => aexecm mk s1 es' | None => None end.
Proof. intros mk. induction es as [|e es IH]; simpl; intros es' s; auto. destruct (astepm mk s e); auto. Qed.
Lemma aexec_app : forall es es' s, aexec s (es ++ es') = match aexec s es with Some s1 => aexec s1 es' | None => None end.
Proof. induction es as [|e es IH]; simpl; intros es' s; auto. destruct (astep s e); auto. Qed.
Lemma lch_gen_end : forall g (s : lst I), cs (lch (gen_end g s)) = cs (lch s) /\ prun (lch (gen_end g s)) = prun (lch s).
Proof.
  intros g s. unfold LoopModel.gen_end. destruct (RunModel.generation _ _ _ _ _ _ _) as [[r l] w].
  unfold loop_head, left. destruct w as [w|]; [destruct w; try destruct (r_run r); auto|]. destruct (_ <? _); try destruct (r_run r); auto.
Qed.
Lemma lstep_len : forall mk s e s', lstep mk s e = Some s' -> length (cs (lch s)) <= length (cs (lch s')).
Proof.
  intros mk s e s' H. destruct e as [e| |q| | | |r u f|]; unfold LoopModel.lstep in H.
  - assert (X : exists c', ChalModel.step mk ev better histcrash xSSE (lch s) e = Some c' /\ s' = mkL c' (lph s) (lkg s) (lrs s) (ltr s)).
    { destruct e; try discriminate; destruct (ChalModel.step mk ev better histcrash xSSE (lch s) _) as [c'|] eqn:Hc; try discriminate; inv_opt; eauto. }
    destruct X as (c' & Hc & ->). simpl. rewrite (cs_len_step _ _ _ _ _ _ _ _ Hc). lia.
  - destruct (lph s); try discriminate. destruct (ChalModel.run _); inv_opt; simpl; auto. now rewrite (proj1 (lch_gen_end _ _)).
  - destruct (lph s); try discriminate. destruct (_ && _); [|discriminate].
    destruct (ChalModel.step _ _ _ _ _ _ _) as [c'|] eqn:Hc; [|discriminate]. inv_opt. simpl. rewrite (cs_len_step _ _ _ _ _ _ _ _ Hc). lia.
  - destruct (lph s); try discriminate. destruct (_ <? _); [|discriminate]. inv_opt. now rewrite (proj1 (lch_gen_end _ _)).
  - destruct (lph s); try discriminate. destruct (_ && _); [|discriminate]. inv_opt. auto.
  - destruct (lph s); try discriminate; [|destruct (existsb _ _); [inv_opt; now rewrite (proj1 (lch_gen_end _ _))|]];
      (destruct (ChalModel.run _); [discriminate|]); inv_opt; now rewrite (proj1 (lch_gen_end _ _)).
  - destruct (lph s); try discriminate. destruct (_ && _); [|discriminate]. inv_opt. now rewrite (proj1 (lch_gen_end _ _)).
  - destruct (lph s); try discriminate. inv_opt. auto.
Qed.
Lemma aexecm_len : forall mk es s s', aexecm mk s es = Some s' -> length (cs (lch (al s))) <= length (cs (lch (al s'))).
Proof.
  intros mk. induction es as [|e es IH]; simpl; intros s s' H; [now inv_opt|].
  destruct (astepm mk s e) as [s1|] eqn:E; [|discriminate]. destruct (astepm_lstep _ _ _ _ E) as (e' & A & _).
  apply lstep_len in A. apply IH in H. lia.
Qed.
Lemma aexecm_ext : forall mk1 mk2 es s s', aexecm mk1 s es = Some s' ->
  (forall c it ib i0 i1, c < length (cs (lch (al s'))) -> mk1 c it ib i0 i1 = mk2 c it ib i0 i1) ->
  aexecm mk2 s es = Some s'.
Proof.
  intros mk1 mk2. induction es as [|e es IH]; simpl; intros s s' H X; auto.
  destruct (astepm mk1 s e) as [s1|] eqn:E; [|discriminate].
  assert (L1 := aexecm_len _ _ _ _ H). destruct (astepm_lstep _ _ _ _ E) as (e' & A & _). apply lstep_len in A.
  rewrite <- (astepm_ext mk1 mk2), E; auto. intros c x it ib i0 i1 Hc _. apply X.
  assert (c < length (cs (lch (al s)))) by (apply nth_error_Some; congruence). lia.
Qed.
Lemma seq_run_ext : forall mk1 mk2 qs c p,
  (forall d it ib i0 i1, c <= d < c + length qs -> mk1 d it ib i0 i1 = mk2 d it ib i0 i1) ->
  seq_run mk1 ev better c qs p = seq_run mk2 ev better c qs p.
Proof.
  intros mk1 mk2. induction qs as [|q qs IH]; intros c p H; simpl; auto.
  assert (E : seq_step mk1 ev better c q p = seq_step mk2 ev better c q p).
  { unfold seq_step. destruct (nth_error p (kt q)), (nth_error p (kb q)), (nth_error p (k0 q)), (nth_error p (k1 q)); auto.
    rewrite H; auto. simpl. lia. }
  rewrite E. apply IH. intros. apply H. simpl. lia.
Qed.
Lemma outcome_ext : forall mk1 mk2 qs c, (forall d it ib i0 i1, d <= c -> mk1 d it ib i0 i1 = mk2 d it ib i0 i1) ->
  outcome mk1 qs c = outcome mk2 qs c.
Proof.
  intros mk1 mk2 qs c H. unfold outcome. destruct (nth_error qs c) as [q|]; auto.
  assert (E : P mk1 ev better p0 qs c = P mk2 ev better p0 qs c).
  { unfold P. apply seq_run_ext. intros d it ib i0 i1 Hd. apply H. rewrite firstn_length in Hd. lia. }
  rewrite E. unfold outcome1. set (p := P mk2 ev better p0 qs c).
  destruct (nth_error p (kt q)), (nth_error p (kb q)), (nth_error p (k0 q)), (nth_error p (k1 q)); auto. now rewrite H.
Qed.
Lemma outcome_app : forall mk qs qs' c, c < length qs -> outcome mk (qs ++ qs') c = outcome mk qs c.
Proof.
  intros mk qs qs'. revert qs. induction qs' as [|q qs' IH]; intros qs c H; [now rewrite app_nil_r|].
  replace (qs ++ q :: qs') with ((qs ++ [q]) ++ qs') by now rewrite <- app_assoc. rewrite IH by (rewrite app_length; simpl; lia).
  now apply outcome_snoc.
Qed.

(** ** ways in which a generation ends early *)
Lemma gen_stop : forall g (s : lst I), r_run (lrs s) && RunModel.g_wait g && g_loop g = false \/ g_chal g <> ChDone ->
  exists l, gen_end g s = mkL (set_run false (lch s)) (LEnd RShutdown) (lkg s) (stop_run (lrs s)) l.
Proof.
  intros g s H. unfold LoopModel.gen_end. 
  assert (X : RunModel.generation npsin up0 up1 o (lkg s) g (lrs s) = (stop_run (lrs s), [EStart (lkg s)], Some RShutdown)).
  { unfold RunModel.generation. destruct (r_run (lrs s)), (RunModel.g_wait g), (g_loop g); cbn [negb andb] in *; auto; destruct H as [H|H]; try discriminate;
    destruct (g_chal g); try reflexivity; congruence. }
  rewrite X. unfold left; simpl. rewrite andb_false_r. eauto.
Qed.

(** ** the whole run *)
Definition mkf (rs : nat -> rst) (c : nat) := mkF (r_fm (rs (c / N))) c.
Definition running (p : phase) : Prop := match p with LTop | LStart _ _ | LWait _ => True | _ => False end.
Definition gen_of mk qs g : list (I * I) := flat_map (fun c => o2l (outcome mk qs c)) (seq (g * N) N).
Record J (es : list levent) (s : ast I) (rs : nat -> rst) (cl : nat -> list Z) : Prop := mkJ {
  j_exec : aexecm (mkf rs) start es = Some s;
  j_rs0 : rs 0 = mkRst true fm 0 sc;
  j_chain : forall g, g < lkg (al s) -> exists u f l, nth_error (joins es) g = Some (u, f) /\
     generation g (mkGen true true ChDone (cl g) u f) (rs g) = (rs (S g), l, None);
  j_joins : running (lph (al s)) -> length (joins es) = lkg (al s);
  j_cur : running (lph (al s)) -> lrs (al s) = rs (lkg (al s));
  j_end : ~ running (lph (al s)) -> all_done (lch (al s)) \/
     (r_fm (lrs (al s)) = r_fm (rs (lkg (al s))) /\ doneto (lch (al s)) (lkg (al s) * N) /\ length (cs (lch (al s))) <= S (lkg (al s)) * N);
  j_kg : lkg (al s) * N <= length (cs (lch (al s)));
  j_rep : prun (lch (al s)) = true -> exists bests reps, bests 0 = b0 /\
     (forall g, g < lkg (al s) -> cl g = calls (bests g) (reps g) /\ bests (S g) = after (bests g) (reps g) /\
        Permutation (reps g) (gen_of (mkf rs) (reqs (lch (al s))) g)) /\
     match lph (al s) with
     | LTop => acalls s = [] /\ apend s = [] /\ abest s = bests (lkg (al s))
     | LStart f0 _ | LWait f0 => ChalModel.run (lch (al s)) = true ->
        exists rep, RI (mkf rs) (reqs (lch (al s))) f0 (cls (lch (al s))) (bests (lkg (al s))) (acalls s) (abest s) (apend s) rep
     | _ => True
     end
}.
Lemma J_LInv : forall es s rs cl, J es s rs cl -> LInv (mkf rs) (al s).
Proof.
  intros es s rs cl H. destruct (aexecm_lexec _ _ _ _ (j_exec _ _ _ _ H)) as (es' & A & _).
  eapply LInv_exec; [|exact A]. apply LInv_init.
Qed.
Lemma J_init : J [] start (fun _ => mkRst true fm 0 sc) (fun _ => []).
Proof.
  assert (E : lkg (al start) = 0 /\ lch (al start) = init p0).
  { unfold ainit, linit, loop_head, left; simpl. destruct (_ <? _); auto. }
  destruct E as [E1 E2].
  constructor; auto.
  - rewrite E1. intros g H. lia.
  - unfold ainit, linit, loop_head, left; simpl. destruct (_ <? _); simpl; auto; contradiction.
  - intros _. left. rewrite E2. intros [|c] x; simpl; discriminate.
  - rewrite E1, E2. simpl. lia.
  - intros _. exists (fun _ => b0), (fun _ => []). split; auto. split; [rewrite E1; intros; lia|].
    unfold ainit, linit, loop_head, left; simpl. destruct (_ <? _); simpl; auto.
Qed.
Lemma undone : forall es s rs cl c x, J es s rs cl -> nth_error (cs (lch (al s))) c = Some x -> cpc x <> PDone ->
  r_fm (rs (c / N)) = r_fm (lrs (al s)).
Proof.
  intros es s rs cl c x H Hx Hp. assert (LI := J_LInv _ _ _ _ H).
  assert (Hc : c < length (cs (lch (al s)))) by (apply nth_error_Some; congruence).
  assert (D : (r_fm (lrs (al s)) = r_fm (rs (lkg (al s))) /\ doneto (lch (al s)) (lkg (al s) * N) /\ length (cs (lch (al s))) <= S (lkg (al s)) * N)).
  { assert (JC := j_cur _ _ _ _ H). assert (JE := j_end _ _ _ _ H). destruct LI as [_ _ Ph]. unfold phinv in Ph. destruct (lph (al s)) as [|f k|f|w|w]; simpl in *.
    - destruct Ph as (_ & _ & D & _). destruct Hp. exact (D c x Hx).
    - destruct Ph as (P1 & -> & P3 & P4 & P5 & P6). rewrite (shape_len _ _ _ _ P4). rewrite (JC Logic.I). split; auto. split; auto. lia.
    - destruct Ph as (P1 & -> & P4 & P5 & P6). rewrite (shape_len _ _ _ _ P4). rewrite (JC Logic.I). split; auto. split; auto. simpl. lia.
    - destruct (JE ltac:(tauto)) as [D|D]; auto. destruct Hp. exact (D c x Hx).
    - destruct (JE ltac:(tauto)) as [D|D]; auto. destruct Hp. exact (D c x Hx). }
  destruct D as (D1 & D2 & D3). rewrite D1. f_equal. f_equal.
  assert (lkg (al s) * N <= c) by (destruct (le_lt_dec (lkg (al s) * N) c) as [?|L]; auto; destruct Hp; exact (D2 c x L Hx)).
  symmetry. apply (Nat.div_unique c N (lkg (al s)) (c - lkg (al s) * N)); [simpl in D3; lia|]. rewrite Nat.mul_comm. lia.
Qed.
Lemma J_astep : forall es s rs cl e, J es s rs cl -> astep s e = astepm (mkf rs) s e.
Proof.
  intros es s rs cl e H. unfold AdaptModel.astep. apply astepm_ext. intros c x it ib i0 i1 Hx Hp.
  unfold mkf. now rewrite (undone _ _ _ _ _ _ H Hx Hp).
Qed.
Definition inphase rs (bb : option I) (s : ast I) : Prop :=
  match lph (al s) with
  | LTop => acalls s = [] /\ apend s = [] /\ abest s = bb
  | LStart f0 _ | LWait f0 => ChalModel.run (lch (al s)) = true ->
     exists rep, RI (mkf rs) (reqs (lch (al s))) f0 (cls (lch (al s))) bb (acalls s) (abest s) (apend s) rep
  | _ => True
  end.
Lemma aexecm_reqs : forall mk es s, aexecm mk start es = Some s -> reqs (lch (al s)) = lrequests es.
Proof.
  intros mk es s H. destruct (aexecm_lexec _ _ _ _ H) as (es' & A & B & _). rewrite <- B.
  apply (run_reqs mk ev better histcrash xSSE npsin up0 up1 o p0 fm sc es' (al s) A).
Qed.
Lemma gen_of_app : forall mk qs qs' g, S g * N <= length qs -> gen_of mk (qs ++ qs') g = gen_of mk qs g.
Proof.
  intros mk qs qs' g H. unfold gen_of. rewrite !flat_map_concat_map. f_equal. apply map_ext_in. intros c Hc. apply in_seq in Hc.
  rewrite outcome_app; auto. simpl in H. lia.
Qed.
Lemma J_keep : forall es s rs cl e s', J es s rs cl -> astepm (mkf rs) s e = Some s' -> jn e = [] -> lkg (al s') = lkg (al s) ->
  (running (lph (al s')) -> running (lph (al s)) /\ lrs (al s') = lrs (al s)) ->
  (~ running (lph (al s')) -> all_done (lch (al s')) \/
     (r_fm (lrs (al s')) = r_fm (rs (lkg (al s))) /\ doneto (lch (al s')) (lkg (al s) * N) /\ length (cs (lch (al s'))) <= S (lkg (al s)) * N)) ->
  (prun (lch (al s')) = true -> prun (lch (al s)) = true) ->
  (forall bb, prun (lch (al s')) = true -> inphase rs bb s -> inphase rs bb s') ->
  J (es ++ [e]) s' rs cl.
Proof.
  intros es s rs cl e s' H E Je K R1 R2 R3 R4. destruct H as [J1 J2 J3 J4 J5 J6 J7 J8].
  assert (X : aexecm (mkf rs) start (es ++ [e]) = Some s') by (rewrite aexecm_app, J1; simpl; now rewrite E).
  assert (RQ : reqs (lch (al s')) = reqs (lch (al s)) ++ lreq e).
  { now rewrite (aexecm_reqs _ _ _ X), (aexecm_reqs _ _ _ J1), lrequests_snoc. }
  constructor; auto.
  - intros g Hg. rewrite K in Hg. rewrite joins_snoc, Je, app_nil_r. auto.
  - intros r. rewrite joins_snoc, Je, app_nil_r, K. apply J4. now apply R1.
  - intros r. destruct (R1 r) as [r' ->]. rewrite K. auto.
  - rewrite K. exact R2.
  - rewrite K. destruct (astepm_lstep _ _ _ _ E) as (e' & A & _). apply lstep_len in A. lia.
  - intros Pr. destruct (J8 (R3 Pr)) as (bests & reps & B0 & B1 & B2). exists bests, reps. split; auto. split.
    + rewrite K. intros g Hg. destruct (B1 g Hg) as (C1 & C2 & C3). split; auto. split; auto. rewrite RQ, gen_of_app; auto.
      unfold reqs. rewrite map_length. assert (S g * N <= lkg (al s) * N) by (apply Nat.mul_le_mono_r; lia). lia.
    + rewrite K. exact (R4 (bests (lkg (al s))) Pr B2).
Qed.
(** a state in which the run ended early *)
Lemma J_stop : forall es s rs cl e g, J es s rs cl -> running (lph (al s)) ->
  r_run (lrs (al s)) && RunModel.g_wait g && g_loop g = false \/ g_chal g <> ChDone ->
  astepm (mkf rs) s e = Some (mkA (gen_end g (al s)) (abest s) (acalls s) (apend s)) -> jn e = [] ->
  J (es ++ [e]) (mkA (gen_end g (al s)) (abest s) (acalls s) (apend s)) rs cl.
Proof.
  intros es s rs cl e g H R Hg E Je. destruct (gen_stop g (al s) Hg) as [l G]. rewrite G in *.
  assert (LI := J_LInv _ _ _ _ H).
  eapply J_keep; eauto; simpl; try tauto.
  - intros _. assert (JC := j_cur _ _ _ _ H R). rewrite JC. destruct LI as [_ _ Ph]. unfold phinv in Ph. destruct (lph (al s)) as [|f k|f|w|w]; simpl in R; try contradiction.
    + left. apply Ph.
    + right. destruct Ph as (P1 & -> & P3 & P4 & P5 & P6). rewrite (shape_len _ _ _ _ P4). split; auto. split; auto. lia.
    + right. destruct Ph as (P1 & -> & P4 & P5 & P6). rewrite (shape_len _ _ _ _ P4). split; auto. split; auto. simpl. lia.
  - intros bb _ _. exact Logic.I.
Qed.

Lemma J_step : forall es s rs cl e s', J es s rs cl -> astep s e = Some s' -> exists rs' cl', J (es ++ [e]) s' rs' cl'.
Proof.
  intros es s rs cl e s' H E. rewrite (J_astep _ _ _ _ _ H) in E. assert (LI := J_LInv _ _ _ _ H).
  assert (LI' := LI). destruct LI' as [R Rr Ph].
  assert (E0 := E). unfold AdaptModel.astepm in E.
  destruct e as [e| |q| | | |r u f|]; unfold LoopModel.lstep in E.
  - (* something happens to the challenges *)
    exists rs, cl. 
    assert (X : norequest e = true /\ exists c, ChalModel.step (mkf rs) ev better histcrash xSSE (lch (al s)) e = Some c).
    { destruct e; try discriminate; (split; [reflexivity|]); destruct (ChalModel.step _ _ _ _ _ (lch (al s)) _) as [cc|]; try discriminate; eauto. }
    destruct X as (Hn & c & Hc).
    assert (AL : al s' = mkL c (lph (al s)) (lkg (al s)) (lrs (al s)) (ltr (al s))).
    { destruct (astepm_lstep _ _ _ _ E0) as (e' & A & _ & _ & _ & B). rewrite B in A by discriminate.
      unfold LoopModel.lstep in A. rewrite Hc in A. destruct e; try discriminate; congruence. }
    eapply J_keep; eauto; rewrite ?AL; simpl; auto.
    + intros NR. destruct (j_end _ _ _ _ H NR) as [D|(D1 & D2 & D3)].
      * left. apply all_done_doneto. assert (Y := doneto_step _ _ _ _ _ _ _ _ _ Hn Hc (proj1 (all_done_doneto _) D)).
        rewrite <- (map_length cq), <- (norequest_cq _ _ _ _ _ _ _ _ Hn Hc), map_length in Y. exact Y.
      * right. split; auto. split; [eapply doneto_step; eauto|].
        rewrite (cs_len_step _ _ _ _ _ _ _ _ Hc). destruct e; try discriminate; simpl; rewrite Nat.add_0_r; exact D3.
    + eapply prun_mono; eauto.
    + intros bb Pr IP. unfold inphase in *. rewrite AL. simpl.
      assert (ST : forall f0, doneto (lch (al s)) f0 -> 
        (run (lch (al s)) = true -> exists rep, RI (mkf rs) (reqs (lch (al s))) f0 (cls (lch (al s))) bb (acalls s) (abest s) (apend s) rep) ->
        run c = true -> exists rep, RI (mkf rs) (reqs c) f0 (cls c) bb (acalls s') (abest s') (apend s') rep).
      { intros f0 DT Hri Hrun. 
        assert (gd : good c) by now split. assert (gd0 := good_mono _ _ _ _ _ _ _ _ Hc gd). destruct (Hri (proj1 gd0)) as [rep ri].
        destruct (note_step (mkf rs) s e s' f0 bb rep) as [rep' Y]; auto.
        - apply LInv_SI; auto.
        - rewrite Hc; discriminate.
        - now rewrite AL.
        - rewrite AL in Y. simpl in Y. eauto. }
      destruct (lph (al s)) as [|f k|f|w|w] eqn:Ep; auto.
      * (* LTop: everything is done, so nothing is reported *)
        unfold phinv in Ph. rewrite Ep in Ph. destruct Ph as (_ & _ & D & _).
        destruct IP as (I1 & I2 & I3).
        assert (NK : forall k, match nth_error (cs (lch (al s))) k with Some (mkChal q (PEval it ch)) => False | Some (mkChal q PHist) => False | _ => True end).
        { intros k. destruct (nth_error (cs (lch (al s))) k) as [[q p]|] eqn:E1; auto. apply D in E1. simpl in E1. subst p. exact Logic.I. }
        destruct e; try discriminate; try (rewrite Hc in E; injection E as <-; now simpl).
        -- exfalso. simpl in Hc. specialize (NK c0). destruct (nth_error (cs (lch (al s))) c0) as [[q p]|]; [|discriminate]. destruct p; try discriminate. exact NK.
        -- exfalso. simpl in Hc. specialize (NK c0). destruct (nth_error (cs (lch (al s))) c0) as [[q p]|]; [|discriminate]. destruct p; try discriminate. exact NK.
      * apply ST; auto. unfold phinv in Ph. rewrite Ep in Ph. tauto.
      * apply ST; auto. unfold phinv in Ph. rewrite Ep in Ph. tauto.
  - exists rs, cl. destruct (lph (al s)) eqn:Ep; try discriminate. unfold phinv in Ph. rewrite Ep in Ph. destruct Ph as (P1 & P2 & P3).
    destruct (ChalModel.run (lch (al s))) eqn:Er; inv_opt.
    + eapply J_keep; eauto; simpl; try tauto.
      * intros _. rewrite Ep. simpl. auto.
      * intros bb Pr IP. unfold inphase in *. rewrite Ep in IP. simpl. destruct IP as (I1 & I2 & I3). intros _. exists []. rewrite I1, I2, I3.
        apply RI_start; unfold reqs, cls; rewrite !map_length; auto.
    + apply J_stop; auto; [rewrite Ep; exact Logic.I|]. left. simpl. now rewrite andb_false_r.
  - exists rs, cl. destruct (lph (al s)) as [|f k|f|w|w] eqn:Ep; try discriminate.
    destruct (_ && _); [|discriminate].
    destruct (ChalModel.step (mkf rs) ev better histcrash xSSE (lch (al s)) (ERequest q)) as [c|] eqn:Ec; [|discriminate]. inv_opt.
    eapply J_keep; eauto; simpl; try tauto.
    + intros _. rewrite Ep. simpl. auto.
    + eapply prun_mono; eauto.
    + intros bb Pr IP. unfold inphase in *. rewrite Ep in IP. simpl. intros Hr.
      assert (gd0 := good_mono _ _ _ _ _ _ _ _ Ec (conj Hr Pr)). destruct (IP (proj1 gd0)) as [rep ri]. exists rep.
      assert (Q1 : reqs c = reqs (lch (al s)) ++ [q]) by (apply (step_reqs _ _ _ _ _ _ _ _ Ec)).
      assert (Q2 : cls c = cls (lch (al s)) ++ [0]).
      { simpl in Ec. destruct (_ && _); [|discriminate]. unfold cls. destruct (prun _); inv_opt; simpl; now rewrite map_app. }
      rewrite Q1, Q2. now apply RI_req.
  - exists rs, cl. destruct (lph (al s)) as [|f k|f|w|w] eqn:Ep; try discriminate. destruct (_ <? _); [|discriminate]. inv_opt.
    apply J_stop; auto; [rewrite Ep; exact Logic.I|]. left. simpl. now rewrite andb_false_r.
  - exists rs, cl. destruct (lph (al s)) as [|f k|f|w|w] eqn:Ep; try discriminate. destruct (_ && _); [|discriminate]. inv_opt.
    eapply J_keep; eauto; simpl; try tauto.
    + intros _. rewrite Ep. simpl. auto.
    + intros bb Pr IP. unfold inphase in *. rewrite Ep in IP. simpl. exact IP.
  - exists rs, cl. destruct (lph (al s)) as [|f k|f|w|w] eqn:Ep; try discriminate.
    + destruct (ChalModel.run (lch (al s))); [discriminate|]. inv_opt. apply J_stop; auto; [rewrite Ep; exact Logic.I|]. left. simpl. now rewrite andb_false_r.
    + destruct (existsb _ _); [inv_opt; apply J_stop; auto; [rewrite Ep; exact Logic.I|]; right; discriminate|].
      destruct (ChalModel.run (lch (al s))); [discriminate|]. inv_opt. apply J_stop; auto; [rewrite Ep; exact Logic.I|]. right; discriminate.
  - (* the end of a generation *)
    destruct (lph (al s)) as [|f0 k|f0|w|w] eqn:Ep; try discriminate.
    assert (PH := Ph). unfold phinv in Ph. rewrite Ep in Ph. destruct Ph as (P1 & P2 & P4 & P5 & P6).
    destruct (ChalModel.run (lch (al s))) eqn:Er; [|discriminate]. cbn [andb] in E. destruct (forallb _ _) eqn:Ef; [|discriminate]. inv_opt.
    set (g := mkGen true true ChDone (acalls s) u f) in *.
    assert (SL := shape_len _ _ _ _ P4). rewrite Nat.add_0_r in SL.
    assert (AD : all_done (lch (al s))).
    { intros i x Hi. destruct (le_lt_dec f0 i) as [L|L]; [|exact (P5 i x L Hi)].
      rewrite forallb_forall in Ef. specialize (Ef x). unfold pdone in Ef.
      assert (In x (skipn f0 (cs (lch (al s))))).
      { apply (nth_error_In _ (i - f0)). rewrite <- (firstn_skipn f0 (cs (lch (al s)))) in Hi.
        rewrite nth_error_app2 in Hi by (rewrite firstn_length; lia). rewrite firstn_length_le in Hi; auto. rewrite SL, P2. simpl. lia. }
      specialize (Ef H0). destruct (cpc x); auto; discriminate. }
    assert (LC := lch_gen_end g (al s)). destruct LC as [LC1 LC2].
    assert (LC3 : pop (lch (gen_end g (al s))) = pop (lch (al s))).
    { unfold LoopModel.gen_end. destruct (RunModel.generation _ _ _ _ _ _ _) as [[r1 l1] w].
      unfold loop_head, left. destruct w as [w|]; [destruct w; try destruct (r_run r1); auto|]. destruct (_ <? _); try destruct (r_run r1); auto. }
    assert (AD' : all_done (lch (gen_end g (al s)))) by (unfold all_done; rewrite LC1; exact AD).
    assert (CUR := j_cur _ _ _ _ H ltac:(rewrite Ep; exact Logic.I)).
    assert (JN := j_joins _ _ _ _ H ltac:(rewrite Ep; exact Logic.I)).
    destruct (RunModel.generation npsin up0 up1 o (lkg (al s)) g (lrs (al s))) as [[r1 l1] w] eqn:Eg.
    destruct w as [w|].
    + (* the loop is left *)
      exists rs, cl.
      assert (KG : lkg (gen_end g (al s)) = lkg (al s) /\ ~ running (lph (gen_end g (al s)))).
      { unfold LoopModel.gen_end. rewrite Eg. unfold left. destruct w; try destruct (r_run r1); simpl; auto. }
      destruct KG as [KG NR].
      assert (X : aexecm (mkf rs) start (es ++ [LJoin r u f]) = Some (mkA (gen_end g (al s)) (abest s) [] [])) by (rewrite aexecm_app, (j_exec _ _ _ _ H); cbn [AdaptModel.aexecm]; now rewrite E0).
      assert (RQ : reqs (lch (gen_end g (al s))) = reqs (lch (al s))) by (unfold reqs; now rewrite LC1).
      destruct H as [J1 J2 J3 J4 J5 J6 J7 J8]. constructor; simpl; auto.
      * rewrite KG. intros g' Hg'. destruct (J3 g' Hg') as (u' & f' & l' & A & B). exists u', f', l'. split; auto.
        rewrite joins_snoc, nth_error_app1; auto. rewrite JN; auto.
      * tauto.
      * tauto.
      * rewrite KG, LC1. exact J7.
      * rewrite LC2. intros Pr. destruct (J8 Pr) as (bests & reps & B0 & B1 & B2). exists bests, reps. split; auto.
        rewrite KG, RQ. split; auto. destruct (lph (gen_end g (al s))); simpl in NR; tauto.
    + (* on to the next *)
      exists (fun k => if k =? S (lkg (al s)) then r1 else rs k), (fun k => if k =? lkg (al s) then acalls s else cl k).
      set (rs' := fun k => if k =? S (lkg (al s)) then r1 else rs k).
      assert (RS : forall k, k <= lkg (al s) -> rs' k = rs k).
      { intros k Hk. unfold rs'. destruct (Nat.eqb_spec k (S (lkg (al s)))); auto. lia. }
      assert (RS1 : rs' (S (lkg (al s))) = r1) by (unfold rs'; now rewrite Nat.eqb_refl).
      assert (MX : forall c it ib i0 i1, c < length (cs (lch (al s))) -> mkf rs c it ib i0 i1 = mkf rs' c it ib i0 i1).
      { intros c it ib i0 i1 Hc. unfold mkf. rewrite RS; auto. rewrite SL in Hc.
        destruct (Nat.eq_dec N 0) as [Z|Z]; [rewrite Z in Hc; lia|].
        apply Nat.lt_succ_r. apply Nat.div_lt_upper_bound; auto. rewrite Nat.mul_comm. exact Hc. }
      assert (X0 : aexecm (mkf rs) start (es ++ [LJoin r u f]) = Some (mkA (gen_end g (al s)) (abest s) [] [])) by (rewrite aexecm_app, (j_exec _ _ _ _ H); cbn [AdaptModel.aexecm]; now rewrite E0).
      assert (X : aexecm (mkf rs') start (es ++ [LJoin r u f]) = Some (mkA (gen_end g (al s)) (abest s) [] [])).
      { eapply aexecm_ext; [exact X0|]. simpl. rewrite LC1. exact MX. }
      assert (KG : lkg (gen_end g (al s)) = S (lkg (al s)) /\ lrs (gen_end g (al s)) = r1 /\
                   (running (lph (gen_end g (al s))) -> lph (gen_end g (al s)) = LTop)).
      { unfold LoopModel.gen_end. rewrite Eg. unfold loop_head, left. destruct (_ <? _); try destruct (r_run r1); simpl; auto; repeat split; auto; tauto. }
      destruct KG as (KG & KR & KP).
      assert (RQ : reqs (lch (gen_end g (al s))) = reqs (lch (al s))) by (unfold reqs; now rewrite LC1).
      assert (GO : forall k, k <= lkg (al s) -> gen_of (mkf rs') (reqs (lch (al s))) k = gen_of (mkf rs) (reqs (lch (al s))) k).
      { intros k Hk. unfold gen_of. rewrite !flat_map_concat_map. f_equal. apply map_ext_in. intros c Hc. apply in_seq in Hc.
        f_equal. symmetry. apply outcome_ext. intros d it ib i0 i1 Hd. apply MX. rewrite SL.
        assert (S k * N <= S (lkg (al s)) * N) by (apply Nat.mul_le_mono_r; lia). simpl in *. lia. }
      destruct H as [J1 J2 J3 J4 J5 J6 J7 J8]. clearbody rs'. constructor; cbn [al abest acalls apend]; auto.
      * rewrite RS by lia. exact J2.
      * rewrite KG. intros k Hk. destruct (Nat.eqb_spec k (lkg (al s))) as [->|Nk].
        -- exists u, f, l1. rewrite joins_snoc, nth_error_app2, JN, Nat.sub_diag by lia. split; auto.
           rewrite RS, RS1, <- CUR by lia. exact Eg.
        -- destruct (J3 k ltac:(lia)) as (u' & f' & l' & A & B). exists u', f', l'. rewrite joins_snoc, nth_error_app1 by lia. split; auto.
           rewrite !RS by lia. exact B.
      * intros _. rewrite joins_snoc, app_length, JN, KG. simpl. lia.
      * intros _. rewrite KG, KR, RS1. reflexivity.
      * rewrite KG, LC1. rewrite SL. lia.
      * rewrite LC2. intros Pr. destruct (J8 Pr) as (bests & reps & B0 & B1 & B2). rewrite KG, RQ. rewrite Ep in B2. destruct (B2 Er) as [rep ri].
        assert (PM : Permutation (somes rep) (gen_of (mkf rs) (reqs (lch (al s))) (lkg (al s)))).
        { unfold gen_of. rewrite <- P2. apply (RI_end _ _ _ _ _ _ _ _ _ N ri).
          - rewrite cls_len, SL, P2. simpl. lia.
          - intros c Hc1 Hc2. rewrite cls_len in Hc2. destruct (nth_error (cs (lch (al s))) c) as [x|] eqn:Ex; [|apply nth_error_Some in Hc2; congruence].
            rewrite (cls_nth _ _ _ Ex), (AD c x Ex). reflexivity. }
        exists (fun k => if k =? S (lkg (al s)) then abest s else bests k), (fun k => if k =? lkg (al s) then somes rep else reps k).
        split; [exact B0|]. split.
        -- intros k Hk. replace (k =? S (lkg (al s))) with false by (symmetry; apply Nat.eqb_neq; lia).
           destruct (Nat.eqb_spec k (lkg (al s))) as [->|Nk].
           ++ rewrite Nat.eqb_refl. rewrite GO by lia. split; [apply (ri_calls _ _ _ _ _ _ _ _ _ ri)|]. split; [apply (ri_best _ _ _ _ _ _ _ _ _ ri)|exact PM].
           ++ replace (S k =? S (lkg (al s))) with false by (symmetry; apply Nat.eqb_neq; lia).
              rewrite GO by lia. apply B1. lia.
        -- destruct (lph (gen_end g (al s))) as [|f1 k1|f1|w|w]; try exact Logic.I.
           ++ rewrite Nat.eqb_refl. auto.
           ++ specialize (KP Logic.I). discriminate.
           ++ specialize (KP Logic.I). discriminate.
  - exists rs, cl. destruct (lph (al s)) as [|f k|f|w|w] eqn:Ep; try discriminate. inv_opt. unfold phinv in Ph. rewrite Ep in Ph.
    destruct Ph as (_ & _ & g & _ & _ & _ & D & _).
    eapply J_keep; eauto; simpl; try tauto. intros bb _ _. exact Logic.I.
Qed.

Lemma J_exec : forall es s, aexec start es = Some s -> exists rs cl, J es s rs cl.
Proof.
  intros es. induction es as [|e es IH] using rev_ind; intros s H.
  - simpl in H. inv_opt. eexists; eexists; apply J_init.
  - rewrite aexec_app in H. destruct (aexec start es) as [s1|]; [|discriminate]. simpl in H.
    destruct (astep s1 e) as [s2|] eqn:E; [|discriminate]. inv_opt.
    destruct (IH _ eq_refl) as (rs & cl & HJ). eapply J_step; eauto.
Qed.
End Proofs.
