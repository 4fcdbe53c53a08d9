(** Invariants of the generation loop over the challenges *)
From Coq Require Import List Bool Arith ZArith Lia.
From Verif Require Import Flt Py FManModel RunModel ChalModel ChalProofs ChalSerial ChalLive ChalProps LoopModel.
Import ListNotations.
Local Open Scope nat_scope.
#[local] Arguments generation : simpl never.
#[local] Arguments enqueue : simpl never.
#[local] Arguments quad_list : simpl never.

Section Proofs.
Context {I : Type}.
Variable mk : nat -> I -> I -> I -> I -> mkres I.
Variable ev : nat -> I -> I -> option I.
Variable better : I -> I -> bool.
Variable histcrash : nat -> bool.
Variable xSSE : bool.
Variable npsin : f64 -> f64.
Variables up0 up1 : f64.
Variable o : opts.
Notation step := (step mk ev better histcrash xSSE).
Notation exec := (exec mk ev better histcrash xSSE).
Notation gexec := (gexec mk ev better histcrash xSSE).
Notation seq_run := (seq_run mk ev better).
Notation lstep := (lstep mk ev better histcrash xSSE npsin up0 up1 o).
Notation lexec := (lexec mk ev better histcrash xSSE npsin up0 up1 o).
Notation gen_end := (gen_end npsin up0 up1 o).
Notation generation := (generation npsin up0 up1 o).
Notation loop_head := (loop_head o).
Notation linit := (linit o).
Ltac inv_opt := match goal with H : Some _ = Some _ |- _ => injection H as <- end.

(** a finished challenge stays as it is *)
Lemma done_step : forall s e s' c x, step s e = Some s' -> nth_error (cs s) c = Some x -> cpc x = PDone ->
  nth_error (cs s') c = Some x.
Proof.
  intros s e s' c x H Hx Hd.
  assert (RL : forall k (s : st I), nth_error (cs s) c = Some x -> nth_error (cs (release1 k s)) c = Some x).
  { intros k s0 E. rewrite release1_cs, E. destruct (match tl (L s0 k) with [] => false | h :: _ => c =? h end); auto.
    destruct x as [q p]. simpl in Hd. subst p. reflexivity. }
  assert (GO : forall c' q' p' p, nth_error (cs s) c' = Some (mkChal q' p') -> p' <> PDone -> nth_error (cs (goto s c' p)) c = Some x).
  { intros c' q' p' p E N. rewrite goto_cs. destruct (Nat.eqb_spec c c') as [->|]; auto.
    rewrite Hx in E. injection E as ->. simpl in Hd. congruence. }
  destruct e as [q|d|d|d|d|d|d| | |n]; simpl in H.
  - destruct (ChalModel.run s); [|discriminate]. simpl in H. destruct (okquad _ q); [|discriminate].
    assert (c < length (cs s)) by (apply nth_error_Some; congruence).
    destruct (prun s); inv_opt; simpl; rewrite nth_error_app1; auto.
  - destruct (nth_error (cs s) d) as [[q p]|] eqn:E; [|discriminate]. destruct p as [[|]| | | | | | |]; try discriminate.
    repeat (match goal with H : match ?x with _ => _ end = _ |- _ => destruct x end); inv_opt; eapply GO; eauto; discriminate.
  - destruct (nth_error (cs s) d) as [[q p]|] eqn:E; [|discriminate]. destruct p as [|[|? ?]|? ? ? ? [|? ?]| | | | |]; try discriminate; inv_opt;
    try apply RL; eapply GO; eauto; discriminate.
  - destruct (nth_error (cs s) d) as [[q p]|] eqn:E; [|discriminate]. destruct p as [| |? ? ? ? [|? ?]| | | | |]; try discriminate.
    destruct (mk _ _ _ _ _); inv_opt; eapply GO; eauto; discriminate.
  - destruct (nth_error (cs s) d) as [[q p]|] eqn:E; [|discriminate]. destruct p; try discriminate.
    repeat (match goal with H : match ?x with _ => _ end = _ |- _ => destruct x end); inv_opt; eapply GO; eauto; discriminate.
  - destruct (nth_error (cs s) d) as [[q p]|] eqn:E; [|discriminate]. destruct p; try discriminate. inv_opt. eapply GO; eauto; discriminate.
  - destruct (nth_error (cs s) d) as [[q p]|] eqn:E; [|discriminate]. destruct p; try discriminate. inv_opt. apply RL. eapply GO; eauto; discriminate.
  - now inv_opt.
  - now inv_opt.
  - destruct (nth_error (abq s) n); [|discriminate]. inv_opt. apply RL. auto.
Qed.
Lemma cs_len_step : forall s e s', step s e = Some s' -> length (cs s') = length (cs s) + length (requests [e]).
Proof. intros s e s' H. assert (X := step_reqs _ _ _ _ _ _ _ _ H). apply (f_equal (@length _)) in X. now rewrite app_length, !map_length in X. Qed.

(** ** the shape of a run *)
Variable p0 : list I.
Notation N := (length p0).
Definition targets (c : st I) : list nat := map (fun x => kt (cq x)) (cs c).
Definition shape (c : st I) (g k : nat) : Prop := targets c = concat (repeat (seq 0 N) g) ++ seq 0 k.
Definition doneto (c : st I) (n : nat) : Prop := forall i x, i < n -> nth_error (cs c) i = Some x -> cpc x = PDone.
Definition settled (c : st I) : Prop := all_done c /\ (prun c = true -> pop c = seq_run 0 (map cq (cs c)) p0).
Definition reach (c : st I) : Prop := exists es, gexec (init p0) es = Some c.
Definition phinv (s : lst I) : Prop :=
  match lph s with
  | LTop => lkg s < o_maxiter o /\ shape (lch s) (lkg s) 0 /\ settled (lch s)
  | LStart f k => lkg s < o_maxiter o /\ f = lkg s * N /\ k <= N /\ shape (lch s) (lkg s) k /\ doneto (lch s) f /\ r_run (lrs s) = true
  | LWait f => lkg s < o_maxiter o /\ f = lkg s * N /\ shape (lch s) (S (lkg s)) 0 /\ doneto (lch s) f /\ r_run (lrs s) = true
  | LRep w => r_run (lrs s) = true /\ (w = RMaxIter \/ w = RDwell) /\
      exists g, g <= o_maxiter o /\ (w = RMaxIter -> g = o_maxiter o) /\ shape (lch s) g 0 /\ settled (lch s)
  | LEnd RShutdown => ChalModel.run (lch s) = false /\ exists g k, g < o_maxiter o /\ k <= N /\ shape (lch s) g k /\ doneto (lch s) (g * N)
  | LEnd w => exists g, g <= o_maxiter o /\ (w = RMaxIter -> g = o_maxiter o) /\ shape (lch s) g 0 /\ settled (lch s)
  end.
Record LInv (s : lst I) : Prop := mkLI {
  li_reach : reach (lch s);
  li_run : r_run (lrs s) = false -> ChalModel.run (lch s) = false;
  li_ph : phinv s
}.

Lemma set_run_id : forall c : st I, set_run (ChalModel.run c) c = c.
Proof. intros [? ? ? ? ? ?]. reflexivity. Qed.
Lemma reach_set_run : forall b c, reach c -> reach (set_run (ChalModel.run c && b) c).
Proof.
  intros b c [es H]. destruct b.
  - rewrite andb_true_r, set_run_id. now exists es.
  - rewrite andb_false_r. exists (es ++ [EShutdown]). now rewrite gexec_app, H.
Qed.
Lemma reach_exec : forall c, reach c -> exists es, exec (init p0) es = Some c.
Proof. intros c [es H]. exists es. now apply gexec_exec. Qed.
Lemma reach_G : forall c, reach c -> G c.
Proof. intros c H. destruct (reach_exec c H) as [es E]. eapply G_exec; [apply G_init|exact E]. Qed.
Lemma pop_len_exec : forall es s s', exec s es = Some s' -> length (pop s') = length (pop s).
Proof.
  induction es as [|e es IH]; simpl; intros s s' H; [now inv_opt|].
  destruct (step s e) as [s1|] eqn:E; [|discriminate]. rewrite (IH _ _ H). eapply step_len; exact E.
Qed.
Lemma reach_len : forall c, reach c -> length (pop c) = N.
Proof. intros c H. destruct (reach_exec c H) as [es E]. apply (pop_len_exec _ _ _ E). Qed.
Lemma shape_len : forall c g k, shape c g k -> length (cs c) = g * N + k.
Proof.
  intros c g k H. unfold shape, targets in H. apply (f_equal (@length _)) in H.
  rewrite map_length, app_length, seq_length in H. rewrite H. f_equal. clear. induction g; simpl; auto.
  now rewrite app_length, seq_length, IHg.
Qed.
Lemma shape_full : forall c g, shape c g N <-> shape c (S g) 0.
Proof.
  intros c g. unfold shape. simpl. rewrite app_nil_r.
  assert (X : seq 0 N ++ concat (repeat (seq 0 N) g) = concat (repeat (seq 0 N) g) ++ seq 0 N).
  { clear. induction g; simpl; [now rewrite app_nil_r|]. now rewrite <- app_assoc, <- IHg. }
  rewrite X. split; intros H; exact H.
Qed.

Lemma settled_of_reach : forall c, reach c -> ChalModel.run c = true -> all_done c -> settled c.
Proof.
  intros c H R D. split; auto. intros Pr. destruct (reach_exec c H) as [es E].
  rewrite (exec_reqs _ _ _ _ _ _ _ _ E). simpl. apply (C20_async_equals_sequential mk ev better histcrash xSSE p0 es c E R Pr D).
Qed.
Definition norequest (e : event) : bool := match e with ERequest _ => false | _ => true end.
Lemma norequest_cq : forall s e s', norequest e = true -> step s e = Some s' -> map cq (cs s') = map (@cq I) (cs s).
Proof.
  intros s e s' Hn H. rewrite (step_reqs _ _ _ _ _ _ _ _ H). destruct e; try discriminate; simpl; now rewrite app_nil_r.
Qed.
Lemma shape_step : forall s e s' g k, norequest e = true -> step s e = Some s' -> shape s g k -> shape s' g k.
Proof.
  intros s e s' g k Hn H. unfold shape, targets.
  assert (X := norequest_cq s e s' Hn H). apply (f_equal (map kt)) in X. rewrite !map_map in X. now rewrite X.
Qed.
Lemma doneto_step : forall s e s' n, norequest e = true -> step s e = Some s' -> doneto s n -> doneto s' n.
Proof.
  intros s e s' n Hn H D i x Hi Hx.
  assert (Hl : i < length (cs s)).
  { assert (length (cs s') = length (cs s)) by (rewrite <- (map_length cq), (norequest_cq s e s' Hn H); apply map_length).
    assert (i < length (cs s')) by (apply nth_error_Some; congruence). lia. }
  destruct (nth_error (cs s) i) as [y|] eqn:E; [|apply nth_error_Some in Hl; congruence].
  assert (Y := D i y Hi E). assert (Z := done_step s e s' i y H E Y). congruence.
Qed.
Lemma all_done_doneto : forall s : st I, all_done s <-> doneto s (length (cs s)).
Proof.
  intros s. split.
  - intros D i x _ H. exact (D i x H).
  - intros D i x H. apply (D i x); auto. apply nth_error_Some. congruence.
Qed.
Lemma settled_step : forall s e s', norequest e = true -> step s e = Some s' -> settled s -> settled s'.
Proof.
  intros s e s' Hn H [D P]. split.
  - apply all_done_doneto. assert (X := doneto_step s e s' _ Hn H (proj1 (all_done_doneto s) D)).
    rewrite <- (map_length cq), <- (norequest_cq s e s' Hn H), map_length in X. exact X.
  - intros Pr. rewrite (norequest_cq s e s' Hn H). rewrite <- P by (eapply prun_mono; eauto).
    destruct (step_pop _ _ _ _ _ _ _ _ H) as [_ [E|(c & q & it & ch & r & _ & E & _)]]; auto.
    apply D in E. discriminate.
Qed.
Lemma reach_step : forall s e s', norequest e = true -> step s e = Some s' -> reach s -> reach s'.
Proof.
  intros s e s' Hn H [es E]. exists (es ++ [e]). rewrite gexec_app, E. simpl. rewrite H. now destruct e.
Qed.

(** what [generation] can return *)
Lemma generation_cases : forall kg g r r' l w, generation kg g r = (r', l, w) ->
  (w = Some RShutdown -> r_run r' = false) /\
  (w <> Some RMaxIter) /\
  (w = Some RDwell -> r_run r' = r_run r) /\
  (w <> Some RShutdown -> RunModel.g_wait g = true /\ g_loop g = true /\ g_chal g = ChDone /\ r_run r = true) /\
  ((r_run r = true -> RunModel.g_wait g = true -> g_loop g = true -> g_chal g = ChDone -> w <> Some RShutdown)).
Proof.
  intros kg g r r' l w H. unfold RunModel.generation in H.
  destruct (r_run r && RunModel.g_wait g) eqn:E1; cbn [negb] in H.
  2:{ injection H as <- <- <-. repeat split; try discriminate; try congruence. intros A B. rewrite A, B in E1. discriminate. }
  apply andb_true_iff in E1. destruct E1 as [E1 E1'].
  destruct (g_loop g) eqn:E2; cbn [negb] in H; [|injection H as <- <- <-; repeat split; try discriminate; try congruence].
  destruct (g_chal g) eqn:E3; [|injection H as <- <- <-; repeat split; try discriminate; try congruence..].
  assert (K : forall s l0 r' l w, call_func o kg g s l0 = (r', l, w) -> w = None \/ w = Some (RRaised UserError)).
  { clear. intros s l0 r' l w H. unfold call_func in H. destruct (o_func o); [destruct (g_func g)|]; injection H as <- <- <-; auto. }
  destruct (truthy_goal (o_goal o)); [injection H as <- <- <-; repeat split; auto; try discriminate|].
  destruct (inquire _ _ _) as [sc ans]. destruct ans as [[|]|e].
  - destruct (K _ _ _ _ _ H) as [->| ->]; repeat split; auto; discriminate.
  - destruct (negb (o_bitter o) && _).
    + destruct (_ <? _)%Z; [injection H as <- <- <-; repeat split; auto; discriminate|].
      destruct (K _ _ _ _ _ H) as [->| ->]; repeat split; auto; discriminate.
    + destruct (K _ _ _ _ _ H) as [->| ->]; repeat split; auto; discriminate.
  - injection H as <- <- <-; repeat split; auto; discriminate.
Qed.
Lemma settled_set_run : forall b c, settled c -> settled (set_run b c).
Proof. intros b c H. exact H. Qed.

Lemma gen_end_inv : forall g s, LInv s -> lkg s < o_maxiter o ->
  (RunModel.g_wait g = true -> g_loop g = true -> g_chal g = ChDone -> r_run (lrs s) = true -> shape (lch s) (S (lkg s)) 0 /\ settled (lch s)) ->
  (exists k, k <= N /\ shape (lch s) (lkg s) k /\ doneto (lch s) (lkg s * N)) ->
  LInv (gen_end g s).
Proof.
  intros g s [R Rr _] Hk HD (k & K1 & K2 & K3). unfold LoopModel.gen_end.
  destruct (RunModel.generation npsin up0 up1 o (lkg s) g (lrs s)) as [[r l] w] eqn:E.
  destruct (generation_cases _ _ _ _ _ _ E) as (G1 & G2 & G3 & G4 & G5).
  set (c := set_run (ChalModel.run (lch s) && r_run r) (lch s)).
  assert (Rc : reach c) by now apply reach_set_run.
  assert (Rn : r_run r = false -> ChalModel.run c = false).
  { intros X. subst c. simpl. now rewrite X, andb_false_r. }
  assert (LF : forall kg' l' w', (w' = RMaxIter \/ w' = RDwell) ->
     (exists g', g' <= o_maxiter o /\ (w' = RMaxIter -> g' = o_maxiter o) /\ shape (lch s) g' 0 /\ settled (lch s)) -> LInv (left c kg' r l' w')).
  { intros kg' l' w' Hw Hs. unfold left. destruct (r_run r) eqn:Er; destruct w'; destruct Hw as [Hw|Hw]; try discriminate;
    (split; [exact Rc|simpl; congruence || auto|unfold phinv; simpl; auto]). }
  destruct w as [w|].
  - destruct (w) as [| | |e] eqn:Ew; try congruence.
    + unfold left. rewrite (G1 eq_refl). split; auto. unfold phinv; simpl. split; [auto|]. exists (lkg s), k. auto.
    + destruct (G4 ltac:(congruence)) as (A1 & A2 & A3 & A4). apply LF; auto. exists (S (lkg s)). destruct (HD A1 A2 A3 A4). repeat split; auto; try discriminate; apply H0.
    + destruct (G4 ltac:(congruence)) as (A1 & A2 & A3 & A4). destruct (HD A1 A2 A3 A4).
      unfold left. split; auto. unfold phinv; simpl. exists (S (lkg s)). repeat split; auto; try discriminate; apply H0.
  - destruct (G4 ltac:(congruence)) as (A1 & A2 & A3 & A4). destruct (HD A1 A2 A3 A4) as [S1 S2].
    unfold LoopModel.loop_head. destruct (S (lkg s) <? o_maxiter o) eqn:Em.
    + apply Nat.ltb_lt in Em. split; auto. unfold phinv; simpl. auto.
    + apply Nat.ltb_ge in Em. apply LF; auto. exists (S (lkg s)). repeat split; auto; [lia|apply S2|apply S2].
Qed.

(** the loop never starts a challenge for a target that still has one *)
Lemma req_free : forall c g k q, shape c g k -> doneto c (g * N) -> kt q = k -> targets_free c (ERequest q) = true.
Proof.
  intros c g k q P4 P5 Ek. simpl. apply forallb_forall. intros x Hx.
  apply In_nth_error in Hx. destruct Hx as [i Hi].
  destruct (le_lt_dec (g * N) i) as [Hfi|Hfi].
  - assert (Z : nth_error (targets c) i = Some (kt (cq x))) by (unfold targets; now rewrite nth_error_map, Hi).
    unfold shape in P4. rewrite P4 in Z.
    assert (LC0 : length (concat (repeat (seq 0 N) g)) = g * N).
    { clear. induction g; simpl; auto. now rewrite app_length, seq_length, IHg. }
    rewrite nth_error_app2, LC0 in Z by lia.
    assert (HI := nth_error_In _ _ Z). apply in_seq in HI.
    destruct (cpc x); auto; apply negb_true_iff, Nat.eqb_neq; lia.
  - rewrite (P5 i x Hfi Hi). reflexivity.
Qed.

Lemma LInv_init : forall fm sc, LInv (linit p0 fm sc).
Proof.
  intros fm sc. unfold LoopModel.linit, LoopModel.loop_head.
  assert (R : reach (init p0)) by now exists [].
  assert (S0 : settled (init p0)) by (split; [intros [|c] x; discriminate|reflexivity]).
  destruct (0 <? o_maxiter o) eqn:E.
  - apply Nat.ltb_lt in E. split; [exact R|discriminate|]. unfold phinv; simpl. repeat split; auto. apply S0.
  - apply Nat.ltb_ge in E. unfold left; simpl. split; [exact R|discriminate|]. unfold phinv; simpl. split; auto. split; auto.
    exists 0. repeat split; auto; try lia. apply S0.
Qed.

Lemma LInv_step : forall s e s', LInv s -> lstep s e = Some s' -> LInv s'.
Proof.
  intros s e s' LI H. assert (LI' := LI). destruct LI' as [R Rr Ph].
  destruct e as [e| |q| | | |rirs u f|]; simpl in H.
  - assert (X : norequest e = true /\ exists c, step (lch s) e = Some c /\ s' = mkL c (lph s) (lkg s) (lrs s) (ltr s)).
    { destruct e; try discriminate; (split; [reflexivity|]); destruct (step (lch s) _) as [cc|]; try discriminate; inv_opt; eauto. }
    destruct X as (Hn & c & Hc & ->). split; simpl.
    + eapply reach_step; eauto.
    + intros X. destruct (step_pop _ _ _ _ _ _ _ _ Hc) as [Y _]. auto.
    + assert (S1 : settled (lch s) -> settled c) by (intros; eapply settled_step; eauto).
      assert (S2 : forall g k, shape (lch s) g k -> shape c g k) by (intros; eapply shape_step; eauto).
      assert (S3 : forall n, doneto (lch s) n -> doneto c n) by (intros; eapply doneto_step; eauto).
      assert (S4 : ChalModel.run (lch s) = false -> ChalModel.run c = false) by (destruct (step_pop _ _ _ _ _ _ _ _ Hc); auto).
      clear - Ph S1 S2 S3 S4. unfold phinv in *; simpl. destruct (lph s) as [|f k|f|w|w]; [..|destruct w]; firstorder.
  - destruct (lph s) eqn:Ep; try discriminate. unfold phinv in Ph. rewrite Ep in Ph. destruct Ph as (P1 & P2 & P3).
    destruct (ChalModel.run (lch s)) eqn:Er; inv_opt.
    + split; [exact R|simpl; intros X; apply Rr in X; congruence|]. unfold phinv; simpl. rewrite (shape_len _ _ _ P2), Nat.add_0_r.
      repeat split; auto; try lia.
      * intros i x _ Hx. exact (proj1 P3 i x Hx).
      * apply not_false_iff_true. intros C. apply Rr in C. congruence.
    + apply gen_end_inv; auto; [discriminate|]. exists 0. repeat split; auto; [lia|]. intros i x _ Hx. exact (proj1 P3 i x Hx).
  - destruct (lph s) as [|f k|f|w|w] eqn:Ep; try discriminate. unfold phinv in Ph. rewrite Ep in Ph.
    destruct Ph as (P1 & P2 & P3 & P4 & P5 & P6).
    destruct (_ <? _) eqn:El; [|discriminate]. destruct (kt q =? k) eqn:Ek; [|discriminate]. cbn [andb] in H.
    apply Nat.ltb_lt in El. apply Nat.eqb_eq in Ek.
    destruct (step (lch s) (ERequest q)) as [c|] eqn:Ec; simpl in Ec; rewrite ?Ec in H; [|discriminate]. inv_opt.
    change (step (lch s) (ERequest q) = Some c) in Ec.
    assert (SL := shape_len _ _ _ P4).
    assert (CL := cs_len_step _ _ _ Ec). simpl in CL.
    assert (DT : doneto c f).
    { intros i x Hi Hx. assert (Hl : i < length (cs (lch s))) by lia.
      destruct (nth_error (cs (lch s)) i) as [y|] eqn:E; [|apply nth_error_Some in Hl; congruence].
      assert (Y := P5 i y Hi E). assert (Z := done_step _ _ _ i y Ec E Y). congruence. }
    split; simpl.
    + destruct R as [es E]. exists (es ++ [ERequest q]). rewrite gexec_app, E. cbn [ChalLive.gexec]. rewrite Ec.
      now rewrite (req_free (lch s) (lkg s) k q) by (subst f; auto).
    + intros X. destruct (step_pop _ _ _ _ _ _ _ _ Ec) as [Y _]. auto.
    + unfold phinv; simpl. repeat split; auto; [rewrite (reach_len _ R) in El; lia|].
      unfold shape, targets in *. assert (X := step_reqs _ _ _ _ _ _ _ _ Ec). apply (f_equal (map kt)) in X.
      rewrite map_app, !map_map in X. rewrite X, P4, <- app_assoc. f_equal. rewrite seq_S. simpl. now rewrite Ek.
  - destruct (lph s) as [|f k|f|w|w] eqn:Ep; try discriminate. unfold phinv in Ph. rewrite Ep in Ph.
    destruct Ph as (P1 & P2 & P3 & P4 & P5 & P6). destruct (_ <? _); [|discriminate]. inv_opt.
    apply gen_end_inv; auto; [discriminate|]. exists k. subst f. auto.
  - destruct (lph s) as [|f k|f|w|w] eqn:Ep; try discriminate. unfold phinv in Ph. rewrite Ep in Ph.
    destruct Ph as (P1 & P2 & P3 & P4 & P5 & P6).
    destruct (ChalModel.run (lch s)) eqn:Er; [|discriminate]. cbn [andb] in H. destruct (k =? _) eqn:Ek; [|discriminate]. inv_opt.
    apply Nat.eqb_eq in Ek. rewrite (reach_len _ R) in Ek. subst k.
    split; [exact R|simpl; congruence|]. unfold phinv; simpl. repeat split; auto. now apply shape_full.
  - destruct (lph s) as [|f k|f|w|w] eqn:Ep; try discriminate; unfold phinv in Ph; rewrite Ep in Ph.
    + destruct Ph as (P1 & P2 & P3 & P4 & P5 & P6).
      destruct (ChalModel.run (lch s)) eqn:Er; [discriminate|]. inv_opt.
      apply gen_end_inv; auto; [discriminate|]. exists k. subst f. auto.
    + destruct Ph as (P1 & P2 & P4 & P5 & P6).
      assert (X : exists k, k <= N /\ shape (lch s) (lkg s) k /\ doneto (lch s) (lkg s * N)).
      { exists N. subst f. split; auto. split; auto. now apply shape_full. }
      destruct (existsb _ _); [inv_opt; apply gen_end_inv; auto; discriminate|].
      destruct (ChalModel.run (lch s)); [discriminate|]. inv_opt; apply gen_end_inv; auto; discriminate.
  - destruct (lph s) as [|f' k|f'|w|w] eqn:Ep; try discriminate; unfold phinv in Ph; rewrite Ep in Ph.
    destruct Ph as (P1 & P2 & P4 & P5 & P6).
    destruct (ChalModel.run (lch s)) eqn:Er; [|discriminate]. cbn [andb] in H. destruct (forallb _ _) eqn:Ef; [|discriminate]. inv_opt.
    apply gen_end_inv; auto.
    + intros _ _ _ _. split; auto. apply settled_of_reach; auto.
      intros i x Hi. destruct (le_lt_dec f' i) as [L|L]; [|exact (P5 i x L Hi)].
      rewrite forallb_forall in Ef. specialize (Ef x). unfold pdone in Ef.
      assert (In x (skipn f' (cs (lch s)))).
      { apply (nth_error_In _ (i - f')). rewrite <- (firstn_skipn f' (cs (lch s))) in Hi.
        rewrite nth_error_app2 in Hi by (rewrite firstn_length; lia). rewrite firstn_length_le in Hi; auto.
        rewrite (shape_len _ _ _ P4). lia. }
      specialize (Ef H). destruct (cpc x); auto; discriminate.
    + exists N. subst f'. split; auto. split; auto. now apply shape_full.
  - destruct (lph s) as [|f' k|f'|w|w] eqn:Ep; try discriminate; unfold phinv in Ph; rewrite Ep in Ph. inv_opt.
    destruct Ph as (P1 & P2 & g & P3 & P4 & P5 & P6).
    split; simpl.
    + assert (X := reach_set_run false _ R). now rewrite andb_false_r in X.
    + auto.
    + unfold phinv; simpl. destruct P2 as [-> | ->]; exists g; repeat split; auto; apply P6.
Qed.
(** the challenges started by the loop *)
Definition lreq (e : levent) : list quad := match e with LReq q => [q] | _ => [] end.
Definition lrequests (es : list levent) : list quad := flat_map lreq es.
(** a step of the loop, seen from the challenges *)
Lemma gen_end_path : forall g s, exists es, gexec (lch s) es = Some (lch (gen_end g s)) /\ requests es = [].
Proof.
  intros g s. unfold LoopModel.gen_end. destruct (generation (lkg s) g (lrs s)) as [[r l] w].
  assert (X : exists es, gexec (lch s) es = Some (set_run (ChalModel.run (lch s) && r_run r) (lch s)) /\ requests es = []).
  { destruct (r_run r).
    - rewrite andb_true_r, set_run_id. now exists [].
    - rewrite andb_false_r. now exists [EShutdown]. }
  assert (LF : forall (c : st I) kg l w, lch (left c kg r l w) = c) by (intros ? ? ? w1; unfold left; destruct w1; try destruct (r_run r); reflexivity).
  destruct w; [now rewrite LF|]. unfold LoopModel.loop_head. destruct (_ <? _); [|rewrite LF]; exact X.
Qed.
Lemma lstep_path : forall s e s', LInv s -> lstep s e = Some s' ->
  exists es, gexec (lch s) es = Some (lch s') /\ requests es = lreq e.
Proof.
  intros s e s' [R _ Ph] H. unfold phinv in Ph. destruct e as [e| |q| | | |rirs u f|]; unfold LoopModel.lstep in H.
  - assert (X : norequest e = true /\ exists c, step (lch s) e = Some c /\ s' = mkL c (lph s) (lkg s) (lrs s) (ltr s)).
    { destruct e; try discriminate; (split; [reflexivity|]); destruct (step (lch s) _) as [cc|]; try discriminate; inv_opt; eauto. }
    destruct X as (Hn & c & Hc & ->). exists [e]. cbn [ChalLive.gexec lch]. rewrite Hc. destruct e; try discriminate; auto.
  - destruct (lph s); try discriminate. destruct (ChalModel.run _); inv_opt; [now exists []|apply gen_end_path].
  - destruct (lph s) as [|f k|f|w|w] eqn:Ep; try discriminate. destruct Ph as (P1 & P2 & P3 & P4 & P5 & P6).
    destruct (_ <? _); [|discriminate]. destruct (kt q =? k) eqn:Ek; [|discriminate]. cbn [andb] in H. apply Nat.eqb_eq in Ek.
    destruct (step (lch s) (ERequest q)) as [c|] eqn:Ec; [|discriminate]. inv_opt.
    exists [ERequest q]. cbn [ChalLive.gexec lch]. rewrite Ec. rewrite (req_free (lch s) (lkg s) k q) by (subst f; auto). auto.
  - destruct (lph s); try discriminate. destruct (_ <? _); [|discriminate]. inv_opt. apply gen_end_path.
  - destruct (lph s); try discriminate. destruct (_ && _); [|discriminate]. inv_opt. now exists [].
  - destruct (lph s); try discriminate; [|destruct (existsb _ _); [inv_opt; apply gen_end_path|]]; (destruct (ChalModel.run _); [discriminate|]); inv_opt; apply gen_end_path.
  - destruct (lph s); try discriminate. destruct (_ && _); [|discriminate]. inv_opt. apply gen_end_path.
  - destruct (lph s); try discriminate. inv_opt. now exists [EShutdown].
Qed.
Lemma LInv_exec : forall es s s', LInv s -> lexec s es = Some s' -> LInv s'.
Proof.
  induction es as [|e es IH]; simpl; intros s s' LI H; [now inv_opt|].
  destruct (lstep s e) as [s1|] eqn:E; [|discriminate]. eapply IH; [eapply LInv_step; eauto|exact H].
Qed.

Lemma lexec_path : forall es s s', LInv s -> lexec s es = Some s' ->
  exists es', gexec (lch s) es' = Some (lch s') /\ requests es' = lrequests es.
Proof.
  induction es as [|e es IH]; intros s s' LI H; [simpl in H; inv_opt; now exists []|].
  cbn [LoopModel.lexec] in H. destruct (lstep s e) as [s1|] eqn:E; [|discriminate].
  destruct (lstep_path s e s1 LI E) as (e1 & A1 & A2). destruct (IH s1 s' (LInv_step _ _ _ LI E) H) as (e2 & B1 & B2).
  exists (e1 ++ e2). rewrite gexec_app, A1. split; auto. unfold requests, lrequests in *. simpl. rewrite flat_map_app. congruence.
Qed.

(** ** the run as RunModel.v sees it *)
Definition quiet (g : gen) : Prop := RunModel.g_wait g = true /\ g_loop g = true /\ g_chal g = ChDone.
Notation gens := (gens npsin up0 up1 o).
Notation rrun := (RunModel.run npsin up0 up1 o).
Definition shift (l : list RunModel.ev) (x : rst * list RunModel.ev * reason) := match x with (a, l', w) => (a, l ++ l', w) end.
Definition rinv (r0 : rst) (s : lst I) : Prop :=
  exists gs, (forall k, k < lkg s -> quiet (gs k)) /\
  match lph s with
  | LTop | LStart _ _ | LWait _ =>
      forall gs', (forall k, k < lkg s -> gs' k = gs k) ->
        gens (o_maxiter o) 0 gs' r0 = shift (ltr s) (gens (o_maxiter o - lkg s) (lkg s) gs' (lrs s))
  | LRep w => rrun gs r0 = (stop_run (lrs s), ltr s, w)
  | LEnd w => rrun gs r0 = (lrs s, ltr s, w)
  end.
Definition upg (gs : nat -> gen) (n : nat) (g : gen) (k : nat) : gen := if k =? n then g else gs k.

Lemma left_rinv : forall r0 c kg r l w gs, (forall k, k < kg -> quiet (gs k)) ->
  gens (o_maxiter o) 0 gs r0 = (r, l, w) -> rinv r0 (left c kg r l w).
Proof.
  intros r0 c kg r l w gs Q H. exists gs. unfold left, RunModel.run. rewrite H.
  destruct w; try (destruct (r_run r) eqn:Er); simpl; rewrite ?Er; auto.
Qed.
Lemma gen_end_rinv : forall r0 g s, lkg s < o_maxiter o ->
  (exists gs, (forall k, k < lkg s -> quiet (gs k)) /\ forall gs', (forall k, k < lkg s -> gs' k = gs k) ->
        gens (o_maxiter o) 0 gs' r0 = shift (ltr s) (gens (o_maxiter o - lkg s) (lkg s) gs' (lrs s))) ->
  rinv r0 (gen_end g s).
Proof.
  intros r0 g s Hk (gs & Q & H). unfold LoopModel.gen_end.
  destruct (generation (lkg s) g (lrs s)) as [[r l] w] eqn:E.
  destruct (generation_cases _ _ _ _ _ _ E) as (G1 & G2 & G3 & G4 & G5).
  destruct (o_maxiter o - lkg s) as [|rem] eqn:Er; [lia|]. cbn [RunModel.gens] in H.
  assert (Qk : forall k, k < lkg s -> quiet (upg gs (lkg s) g k)).
  { intros k Hk'. unfold upg. replace (k =? lkg s) with false by (symmetry; apply Nat.eqb_neq; lia). auto. }
  destruct w as [w|].
  - apply (left_rinv r0 _ _ _ _ _ (upg gs (lkg s) g)); auto.
    rewrite H by (intros k Hk'; unfold upg; replace (k =? lkg s) with false by (symmetry; apply Nat.eqb_neq; lia); auto).
    unfold upg. rewrite Nat.eqb_refl, E. reflexivity.
  - destruct (G4 ltac:(discriminate)) as (A1 & A2 & A3 & A4).
    assert (Q' : forall k, k < S (lkg s) -> quiet (upg gs (lkg s) g k)).
    { intros k Hk'. destruct (Nat.eq_dec k (lkg s)) as [->|]; [unfold upg; rewrite Nat.eqb_refl; repeat split; auto|apply Qk; lia]. }
    assert (X : forall gs', (forall k, k < S (lkg s) -> gs' k = upg gs (lkg s) g k) ->
      gens (o_maxiter o) 0 gs' r0 = shift (ltr s ++ l) (gens (o_maxiter o - S (lkg s)) (S (lkg s)) gs' r)).
    { intros gs' Hg. rewrite H.
      - assert (Z := Hg (lkg s) ltac:(lia)). unfold upg in Z. rewrite Nat.eqb_refl in Z. rewrite Z, E.
        replace (o_maxiter o - S (lkg s)) with rem by lia. destruct (gens rem (S (lkg s)) gs' r) as [[a l'] w']. simpl. now rewrite <- app_assoc.
      - intros k Hk'. rewrite Hg by lia. unfold upg. now replace (k =? lkg s) with false by (symmetry; apply Nat.eqb_neq; lia). }
    unfold LoopModel.loop_head. destruct (S (lkg s) <? o_maxiter o) eqn:Em.
    + exists (upg gs (lkg s) g). auto.
    + apply Nat.ltb_ge in Em. apply (left_rinv r0 _ _ _ _ _ (upg gs (lkg s) g)); auto.
      rewrite X; auto. replace (o_maxiter o - S (lkg s)) with 0 by lia. simpl. now rewrite app_nil_r.
Qed.
Lemma rinv_init : forall fm sc, rinv (mkRst true fm 0 sc) (linit p0 fm sc).
Proof.
  intros fm sc. unfold LoopModel.linit, LoopModel.loop_head. destruct (0 <? o_maxiter o) eqn:E.
  - exists (fun _ => mkGen true true ChDone [] fzero FOk). simpl. split; [lia|]. intros gs' _. rewrite Nat.sub_0_r.
    now destruct (gens _ _ _ _) as [[? ?] ?].
  - apply Nat.ltb_ge in E. apply (left_rinv _ _ _ _ _ _ (fun _ => mkGen true true ChDone [] fzero FOk)); [lia|].
    now replace (o_maxiter o) with 0 by lia.
Qed.
Lemma rinv_step : forall r0 s e s', LInv s -> rinv r0 s -> lstep s e = Some s' -> rinv r0 s'.
Proof.
  intros r0 s e s' [_ _ Ph] RI H. unfold phinv in Ph.
  destruct e as [e| |q| | | |rirs u f|]; simpl in H.
  - assert (X : exists c, s' = mkL c (lph s) (lkg s) (lrs s) (ltr s)).
    { destruct e; try discriminate; destruct (step (lch s) _) as [cc|]; try discriminate; inv_opt; eauto. }
    destruct X as (c & ->). exact RI.
  - unfold rinv in RI. destruct (lph s) eqn:Ep; try discriminate. destruct Ph as (P1 & _).
    destruct (ChalModel.run (lch s)); inv_opt; [exact RI|]. now apply gen_end_rinv.
  - unfold rinv in RI. destruct (lph s) as [|f k|f|w|w] eqn:Ep; try discriminate.
    destruct (_ && (kt q =? k)); [|discriminate].
    assert (X : exists c, s' = mkL c (LStart f (S k)) (lkg s) (lrs s) (ltr s)).
    { destruct (ChalModel.run (lch s) && _); [|discriminate]. destruct (prun (lch s)); inv_opt; eauto. }
    destruct X as (c & ->). exact RI.
  - unfold rinv in RI. destruct (lph s) as [|f k|f|w|w] eqn:Ep; try discriminate. destruct Ph as (P1 & _).
    destruct (_ <? _); [|discriminate]. inv_opt. now apply gen_end_rinv.
  - unfold rinv in RI. destruct (lph s) as [|f k|f|w|w] eqn:Ep; try discriminate.
    destruct (_ && _); [|discriminate]. inv_opt. exact RI.
  - unfold rinv in RI. destruct (lph s) as [|f k|f|w|w] eqn:Ep; try discriminate; destruct Ph as (P1 & _).
    + destruct (ChalModel.run _); [discriminate|]. inv_opt. now apply gen_end_rinv.
    + destruct (existsb _ _); [|destruct (ChalModel.run _); [discriminate|]]; inv_opt; now apply gen_end_rinv.
  - unfold rinv in RI. destruct (lph s) as [|f' k|f'|w|w] eqn:Ep; try discriminate; destruct Ph as (P1 & _).
    destruct (_ && _); [|discriminate]. inv_opt. now apply gen_end_rinv.
  - unfold rinv in RI. destruct (lph s) as [|f' k|f'|w|w] eqn:Ep; try discriminate. inv_opt. exact RI.
Qed.
Lemma rinv_exec : forall r0 es s s', LInv s -> rinv r0 s -> lexec s es = Some s' -> rinv r0 s'.
Proof.
  induction es as [|e es IH]; simpl; intros s s' LI RI H; [now inv_opt|].
  destruct (lstep s e) as [s1|] eqn:E; [|discriminate]. eapply IH; [eapply LInv_step; eauto|eapply rinv_step; eauto|exact H].
Qed.

(** ** how many steps a run can take *)
(** everything but calls of shutdown and abort from outside *)
Definition linternal (e : levent) : bool := match e with LC e => internal e | _ => true end.
Definition aborts (es : list levent) : nat := length (filter (fun e => match e with LC EPopAbort => true | _ => false end) es).
Definition inner (es : list levent) : nat := length (filter linternal es).
Notation B := (N + 10).
Definition potential (s : lst I) : nat :=
  total (lch s) +
  match lph s with
  | LTop => (o_maxiter o - lkg s) * (N * B + 3) + 2
  | LStart f k => (o_maxiter o - S (lkg s)) * (N * B + 3) + (N - k) * B + 4
  | LWait f => (o_maxiter o - S (lkg s)) * (N * B + 3) + 3
  | LRep _ => 1
  | LEnd _ => 0
  end.
Lemma locks_len : forall c, reach c -> length (locks c) = N.
Proof. intros c R. rewrite (g_len c (reach_G c R)). now apply reach_len. Qed.
Lemma gen_end_potential : forall g s, lkg s < o_maxiter o ->
  potential (gen_end g s) <= total (lch s) + ((o_maxiter o - S (lkg s)) * (N * B + 3) + 2).
Proof.
  intros g s Hk. unfold LoopModel.gen_end. destruct (generation (lkg s) g (lrs s)) as [[r l] w].
  assert (LF : forall c kg l w, total c = total (lch s) -> potential (left c kg r l w) <= total (lch s) + ((o_maxiter o - S (lkg s)) * (N * B + 3) + 2)).
  { intros c kg l' w' Hc. unfold left, potential. generalize ((o_maxiter o - S (lkg s)) * (N * B + 3)). intros X. destruct w'; try destruct (r_run r); cbn [lch lph]; rewrite Hc; lia. }
  destruct w as [w|]; [now apply LF|]. unfold LoopModel.loop_head. destruct (_ <? _); [|now apply LF].
  unfold potential; simpl. change (total (set_run (ChalModel.run (lch s) && r_run r) (lch s))) with (total (lch s)). lia.
Qed.
Lemma potential_step : forall s e s', LInv s -> lstep s e = Some s' ->
  potential s' + inner [e] <= potential s + aborts [e] * N.
Proof.
  intros s e s' LI H. destruct LI as [R _ Ph]. unfold phinv in Ph.
  destruct e as [e| |q| | | |rirs u f|];
    [|match goal with |- context [inner ?x] => change (inner x) with 1; change (aborts x) with 0 end..]; unfold LoopModel.lstep in H.
  - assert (X : norequest e = true /\ exists c, step (lch s) e = Some c /\ s' = mkL c (lph s) (lkg s) (lrs s) (ltr s)).
    { destruct e; try discriminate; (split; [reflexivity|]); destruct (step (lch s) _) as [cc|]; try discriminate; inv_opt; eauto. }
    destruct X as (Hn & c & Hc & ->). unfold potential; cbn [lch lph lkg].
    assert (T : total c + inner [LC e] <= total (lch s) + aborts [LC e] * N).
    { unfold inner, aborts. cbn [filter linternal]. destruct (internal e) eqn:Ei.
      - assert (T := total_dec _ _ _ _ _ _ _ _ Ei Hc). destruct e; try discriminate; simpl; lia.
      - destruct e; try discriminate; simpl in Hc; injection Hc as <-; unfold total; simpl; auto.
        rewrite app_length, seq_length, (locks_len _ R). lia. }
    clear - T. lia.
  - destruct (lph s) eqn:Ep; try discriminate. destruct Ph as (P1 & P2 & _). 
    destruct (ChalModel.run (lch s)); inv_opt.
    + unfold potential; cbn [lch lph lkg]. rewrite Ep.
      replace (o_maxiter o - lkg s) with (S (o_maxiter o - S (lkg s))) by lia. rewrite Nat.sub_0_r. simpl. lia.
    + assert (X := gen_end_potential (mkGen false true ChDone [] fzero FOk) s P1). unfold potential at 2. rewrite Ep.
      replace (o_maxiter o - lkg s) with (S (o_maxiter o - S (lkg s))) by lia. simpl in *. lia.
  - destruct (lph s) as [|f k|f|w|w] eqn:Ep; try discriminate. destruct Ph as (P1 & P2 & P3 & _).
    destruct (_ <? _) eqn:El; [|discriminate]. destruct (kt q =? k); [|discriminate]. cbn [andb] in H.
    destruct (step (lch s) (ERequest q)) as [c|] eqn:Ec; [|discriminate]. inv_opt.
    apply Nat.ltb_lt in El. rewrite (reach_len _ R) in El.
    unfold potential; cbn [lch lph lkg]. rewrite Ep. 
    assert (T : total c = total (lch s) + (N + 9)).
    { simpl in Ec. destruct (ChalModel.run (lch s)); [|discriminate]. simpl in Ec. destruct (okquad _ q); [|discriminate].
      assert (LE : length (enqueue (length (cs (lch s))) (quad_list q) (locks (lch s))) = length (locks (lch s))) by apply enqueue_len.
      assert (LS : forall a b, list_sum (a ++ b) = list_sum a + list_sum b) by apply list_sum_app.
      destruct (prun (lch s)); injection Ec as <-; unfold total; cbn [cs locks abq with_cs]; rewrite ?LE, map_app, LS, (locks_len _ R); unfold msr, list_sum; simpl; lia. }
    rewrite T. replace (N - k) with (S (N - S k)) by lia. lia.
  - destruct (lph s) as [|f k|f|w|w] eqn:Ep; try discriminate. destruct Ph as (P1 & _). destruct (_ <? _); [|discriminate]. inv_opt.
    assert (X := gen_end_potential (mkGen true false ChDone [] fzero FOk) s P1). unfold potential at 2. rewrite Ep. simpl in *. lia.
  - destruct (lph s) as [|f k|f|w|w] eqn:Ep; try discriminate.
    destruct (_ && _); [|discriminate]. inv_opt. unfold potential; cbn [lch lph lkg]. rewrite Ep.  lia.
  - destruct (lph s) as [|f k|f|w|w] eqn:Ep; try discriminate; destruct Ph as (P1 & _).
    + destruct (ChalModel.run _); [discriminate|]. inv_opt.
      assert (X := gen_end_potential (mkGen true false ChDone [] fzero FOk) s P1). unfold potential at 2. rewrite Ep. simpl in *. lia.
    + assert (X1 := gen_end_potential (mkGen true true ChFailed [] fzero FOk) s P1). assert (X2 := gen_end_potential (mkGen true true ChShut [] fzero FOk) s P1).
      unfold potential at 2. rewrite Ep. simpl.
      destruct (existsb _ _); [inv_opt; simpl in *; lia|]. destruct (ChalModel.run _); [discriminate|]. inv_opt; simpl in *; lia.
  - destruct (lph s) as [|f' k|f'|w|w] eqn:Ep; try discriminate; destruct Ph as (P1 & _).
    destruct (_ && _); [|discriminate]. inv_opt.
    assert (X := gen_end_potential (mkGen true true ChDone rirs u f) s P1). unfold potential at 2. rewrite Ep. simpl in *. lia.
  - destruct (lph s) as [|f' k|f'|w|w] eqn:Ep; try discriminate. inv_opt. unfold potential; cbn [lch lph lkg]. rewrite Ep. 
    change (total (set_run false (lch s))) with (total (lch s)). lia.
Qed.
Lemma potential_exec : forall es s s', LInv s -> lexec s es = Some s' -> potential s' + inner es <= potential s + aborts es * N.
Proof.
  induction es as [|e es IH]; intros s s' LI H; [simpl in H; inv_opt; unfold inner, aborts; simpl; lia|].
  cbn [LoopModel.lexec] in H. destruct (lstep s e) as [s1|] eqn:E; [|discriminate].
  assert (X := potential_step s e s1 LI E). assert (Y := IH s1 s' (LInv_step _ _ _ LI E) H).
  unfold inner, aborts in *. cbn [filter] in *. destruct (linternal e); destruct (match e with LC EPopAbort => true | _ => false end); simpl in *; lia.
Qed.

(** ** a run that has not ended can go on *)
Lemma quad_exists : forall k, 4 <= N -> k < N -> exists q, okquad N q = true /\ kt q = k.
Proof.
  intros k H4 Hk.
  assert (X : exists a b c, a < N /\ b < N /\ c < N /\ k <> a /\ k <> b /\ k <> c /\ a <> b /\ a <> c /\ b <> c).
  { destruct (Nat.eq_dec k 0); [exists 1, 2, 3; lia|]. destruct (Nat.eq_dec k 1); [exists 0, 2, 3; lia|].
    destruct (Nat.eq_dec k 2); [exists 0, 1, 3; lia|]. exists 0, 1, 2; lia. }
  destruct X as (a & b & c & X). exists (mkQuad k a b c). split; auto. unfold okquad; simpl.
  rewrite !andb_true_iff, !Nat.ltb_lt, !negb_true_iff, !Nat.eqb_neq. lia.
Qed.
Lemma nth_skipn : forall A n (l : list A) i, nth_error (skipn n l) i = nth_error l (n + i).
Proof. induction n as [|n IH]; intros [|a l] i; simpl; auto. destruct i; reflexivity. Qed.
Lemma loop_progress : forall s, 4 <= N -> LInv s -> (forall w, lph s <> LEnd w) ->
  exists e s', linternal e = true /\ lstep s e = Some s'.
Proof.
  intros s H4 [R Rr Ph] NE. unfold phinv in Ph.
  destruct (lph s) as [|f k|f|w|w] eqn:Ep.
  - exists LGo. simpl. rewrite Ep. destruct (ChalModel.run (lch s)); eauto.
  - destruct Ph as (P1 & P2 & P3 & P4 & P5 & P6).
    destruct (ChalModel.run (lch s)) eqn:Er.
    + destruct (Nat.eq_dec k N) as [->|Nk].
      * exists LAll. simpl. rewrite Ep, Er, (reach_len _ R), Nat.eqb_refl. simpl. eauto.
      * destruct (quad_exists k H4 ltac:(lia)) as (q & Q1 & Q2).
        exists (LReq q). unfold LoopModel.lstep. rewrite Ep, Q2, Nat.eqb_refl, (reach_len _ R).
        replace (k <? N) with true by (symmetry; apply Nat.ltb_lt; lia). cbn [andb].
        unfold ChalModel.step. rewrite Er, (reach_len _ R), Q1. cbn [andb]. destruct (prun (lch s)); eauto.
    + exists LBreak. simpl. rewrite Ep, Er. eauto.
  - destruct Ph as (P1 & P2 & P4 & P5 & P6).
    destruct (existsb pfail (skipn f (cs (lch s)))) eqn:Ef; [exists LBreak; simpl; rewrite Ep, Ef; eauto|].
    destruct (ChalModel.run (lch s)) eqn:Er; [|exists LBreak; simpl; rewrite Ep, Ef, Er; eauto].
    destruct (forallb pdone (skipn f (cs (lch s)))) eqn:Ed; [exists (LJoin [] fzero FOk); simpl; rewrite Ep, Er, Ed; simpl; eauto|].
    assert (NF : existsb failed (cs (lch s)) = false).
    { apply existsb_nth. intros c x Hx. destruct (le_lt_dec f c) as [L|L].
      - apply not_true_iff_false. intros C. apply not_true_iff_false in Ef. apply Ef. apply existsb_exists. exists x. split.
        + apply (nth_error_In _ (c - f)). rewrite nth_skipn. rewrite <- Hx. f_equal. lia.
        + unfold failed, pfail in *. destruct (cpc x); auto; discriminate.
      - unfold failed. rewrite (P5 c x L Hx). reflexivity. }
    destruct (progress mk ev better histcrash xSSE (lch s) (reach_G _ R) NF) as (e & c & Hi & Hs).
    { apply existsb_exists. assert (X : exists x, In x (skipn f (cs (lch s))) /\ pdone x = false).
      { clear - Ed. induction (skipn f (cs (lch s))) as [|x l IH]; [discriminate|]. simpl in Ed. destruct (pdone x) eqn:Epd.
        - destruct IH as (y & H1 & H2); auto. exists y. split; auto. now right.
        - exists x. split; auto. now left. }
      destruct X as (x & Hx & Hp). exists x.
      assert (Hx' : In x (cs (lch s))) by (rewrite <- (firstn_skipn f (cs (lch s))); apply in_or_app; auto).
      split; auto. rewrite existsb_nth in NF. apply In_nth_error in Hx'. destruct Hx' as [i Hi]. specialize (NF i x Hi).
      unfold unfinished, failed, pdone in *. destruct (cpc x); auto. }
    exists (LC e). simpl. destruct e; try discriminate; rewrite Hs; eauto.
  - exists LFinish. simpl. rewrite Ep. eauto.
  - now elim (NE w).
Qed.
End Proofs.
