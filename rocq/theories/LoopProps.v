(** * Properties C80-C84: a whole run, generations and challenges together *)
From Coq Require Import List Bool Arith ZArith Lia Reals.
From Verif Require Import Flt FltMore Py IndivModel IndivProofs ParamModel FManModel RunModel ChalModel ChalProofs ChalSerial ChalLive ChalInst ChalProps LoopModel LoopProofs.
Import ListNotations.
Local Open Scope nat_scope.

(** ** Vocabulary *)
(** [lrequests es]: the challenges started in [es], in order (LoopProofs.v: the
    [q] of the events [LReq q]).  [seq_run] (ChalSerial.v): challenges one at a
    time, each complete before the next.  [gexec] (ChalLive.v): executions of the
    challenges in which none is started for a target that has an unfinished one *)

Section Generic.
Context {I : Type}.
Variable mk : nat -> I -> I -> I -> I -> mkres I.
Variable ev : nat -> I -> I -> option I.
Variable better : I -> I -> bool.
Variable histcrash : nat -> bool.
Variable xSSE : bool.
Variable npsin : f64 -> f64.
Variables up0 up1 : f64.
Variable o : opts.
Variable p0 : list I.
Variables (fm : fman) (sc : score).
Notation gexec := (gexec mk ev better histcrash xSSE).
Notation seq_run := (seq_run mk ev better).
Notation lstep := (lstep mk ev better histcrash xSSE npsin up0 up1 o).
Notation lexec := (lexec mk ev better histcrash xSSE npsin up0 up1 o).
Notation start := (linit o p0 fm sc).
Notation LInv := (LInv mk ev better histcrash xSSE o p0).
Notation N := (length p0).

Lemma start_inv : LInv start. Proof. apply LInv_init. Qed.
Lemma run_inv : forall es s, lexec start es = Some s -> LInv s.
Proof. intros es s H. eapply LInv_exec; [apply start_inv|exact H]. Qed.
Lemma lch_start : lch start = init p0.
Proof. unfold linit, loop_head, left. destruct (_ <? _); reflexivity. Qed.
Lemma run_reqs : forall es s, lexec start es = Some s -> map cq (cs (lch s)) = lrequests es.
Proof.
  intros es s H. destruct (lexec_path _ _ _ _ _ _ _ _ _ _ _ _ _ start_inv H) as (es' & A & B).
  rewrite lch_start in A. apply gexec_exec in A. apply exec_reqs in A. simpl in A. congruence.
Qed.
Lemma run_shape : forall s, LInv s -> exists g k, shape p0 (lch s) g k /\ k <= N /\ doneto (lch s) (g * N) /\ (g < o_maxiter o \/ g = o_maxiter o /\ k = 0).
Proof.
  intros s [_ _ Ph]. unfold phinv in Ph. destruct (lph s) as [|f k|f|w|w].
  - destruct Ph as (P1 & P2 & P3). exists (lkg s), 0. repeat split; auto; [lia|]. intros i x _ Hx. exact (proj1 P3 i x Hx).
  - destruct Ph as (P1 & -> & P3 & P4 & P5 & P6). exists (lkg s), k. auto.
  - destruct Ph as (P1 & -> & P4 & P5 & P6). exists (lkg s), N. split; [now apply shape_full|]. auto.
  - destruct Ph as (_ & _ & g & P1 & P2 & P3 & P4). exists g, 0. split; auto. split; [lia|].
    split; [intros i x _ Hx; exact (proj1 P4 i x Hx)|]. destruct (Nat.eq_dec g (o_maxiter o)); [auto|left; lia].
  - destruct w; try (destruct Ph as (g & P1 & P2 & P3 & P4); exists g, 0; split; auto; split; [lia|];
    split; [intros i x _ Hx; exact (proj1 P4 i x Hx)|]; destruct (Nat.eq_dec g (o_maxiter o)); [auto|left; lia]).
    destruct Ph as (_ & g & k & P1 & P2 & P3 & P4). exists g, k. auto.
Qed.
Lemma concat_seq_nth : forall n g k c, nth_error (concat (repeat (seq 0 n) g) ++ seq 0 k) c <> None -> k <= n ->
  nth_error (concat (repeat (seq 0 n) g) ++ seq 0 k) c = Some (c mod n).
Proof.
  intros n. induction g as [|g IH]; intros k c H Hk; cbn [repeat concat app] in *.
  - apply nth_error_Some in H. rewrite seq_length in H. rewrite (nth_error_nth' _ 0) by now rewrite seq_length.
    rewrite seq_nth by auto. rewrite (Nat.mod_small c n) by lia. reflexivity.
  - rewrite <- app_assoc in *. destruct (le_lt_dec n c) as [L|L].
    + rewrite nth_error_app2, seq_length in * by (rewrite seq_length; lia). rewrite IH by auto.
      destruct n as [|n]; [rewrite ?Nat.sub_0_r; reflexivity|]. f_equal.
      rewrite <- (Nat.mod_add (c - S n) 1 (S n)) by lia. f_equal. lia.
    + rewrite nth_error_app1 by (rewrite seq_length; lia). rewrite (nth_error_nth' _ 0) by now rewrite seq_length.
      rewrite seq_nth by auto. rewrite (Nat.mod_small c n) by lia. reflexivity.
Qed.

(** *** C80: generations *)
(** challenge number c of a run is for target c mod Np, so that each generation
    challenges every member exactly once, in order; there are never more than
    maxiter generations of them *)
Theorem C80_targets_in_turn : forall es s c q, lexec start es = Some s ->
  nth_error (lrequests es) c = Some q -> kt q = c mod N /\ c < o_maxiter o * N.
Proof.
  intros es s c q H Hq. assert (LI := run_inv es s H).
  destruct (run_shape s LI) as (g & k & S1 & S2 & S3 & S4). assert (SL := shape_len _ _ _ _ S1).
  rewrite <- (run_reqs es s H) in Hq.
  assert (T : nth_error (targets (lch s)) c = Some (kt q)).
  { unfold targets. rewrite <- map_map, nth_error_map. now rewrite Hq. }
  unfold shape in S1. rewrite S1 in T. split.
  - rewrite concat_seq_nth in T; auto; [congruence|now rewrite T].
  - assert (c < length (cs (lch s))) by (rewrite <- (map_length cq); apply nth_error_Some; congruence).
    destruct S4 as [S4|[-> ->]]; [|lia]. assert (S g * N <= o_maxiter o * N) by (apply Nat.mul_le_mono_r; lia). simpl in *. lia.
Qed.
(** no challenge of a generation is started before all challenges of the earlier
    ones have finished without an exception *)
Theorem C80_barrier : forall es s c d x y, lexec start es = Some s ->
  nth_error (cs (lch s)) c = Some x -> nth_error (cs (lch s)) d = Some y -> d / N < c / N -> cpc y = PDone.
Proof.
  intros es s c d x y H Hx Hy Hlt. assert (LI := run_inv es s H).
  destruct (run_shape s LI) as (g & k & S1 & S2 & S3 & S4). assert (SL := shape_len _ _ _ _ S1).
  assert (Hc : c < g * N + k) by (rewrite <- SL; apply nth_error_Some; congruence).
  destruct (Nat.eq_dec N 0) as [Z|Z]; [rewrite Z in *; simpl in *; lia|].
  apply (S3 d y); auto.
  assert (d < c / N * N).
  { destruct (le_lt_dec (c / N * N) d) as [L|L]; auto. exfalso.
    assert (c / N <= d / N) by (apply Nat.div_le_lower_bound; lia). lia. }
  assert (c / N <= g).
  { apply Nat.lt_succ_r. apply Nat.div_lt_upper_bound; auto. rewrite Nat.mul_comm. simpl. lia. }
  assert (c / N * N <= g * N) by now apply Nat.mul_le_mono_r. lia.
Qed.
(** a challenge that raised is among the last generation's, and then the run ends
    as stopped *)
Theorem C80_failure_is_final : forall es s c x, lexec start es = Some s ->
  nth_error (cs (lch s)) c = Some x -> cpc x = PFail ->
  (forall d y, nth_error (cs (lch s)) d = Some y -> d / N <= c / N) /\
  (forall w, lph s = LEnd w -> w = RShutdown) /\ lph s <> LTop /\ (forall w, lph s <> LRep w).
Proof.
  intros es s c x H Hx Hp. split; [|].
  - intros d y Hy. destruct (le_lt_dec (d / N) (c / N)) as [L|L]; auto.
    assert (X := C80_barrier es s d c y x H Hy Hx L). congruence.
  - assert (LI := run_inv es s H). destruct LI as [_ _ Ph]. unfold phinv in Ph.
    assert (NS : ~ settled mk ev better p0 (lch s)) by (intros [D _]; apply D in Hx; congruence).
    split; [|split].
    + intros w E. rewrite E in Ph. destruct w; auto; destruct Ph as (g & _ & _ & _ & X); tauto.
    + intros E. rewrite E in Ph. tauto.
    + intros w E. rewrite E in Ph. destruct Ph as (_ & _ & g & _ & _ & _ & X); tauto.
Qed.

(** *** C81: what C23 assumes about the starts of challenges holds in a run *)
Theorem C81_structured : forall es1 es2 s1 s2, lexec start es1 = Some s1 -> lexec s1 es2 = Some s2 ->
  exists g1 g2, gexec (init p0) g1 = Some (lch s1) /\ requests g1 = lrequests es1 /\
                gexec (init p0) (g1 ++ g2) = Some (lch s2) /\ requests g2 = lrequests es2.
Proof.
  intros es1 es2 s1 s2 H1 H2.
  destruct (lexec_path _ _ _ _ _ _ _ _ _ _ _ _ _ start_inv H1) as (g1 & A1 & B1). rewrite lch_start in A1.
  destruct (lexec_path _ _ _ _ _ _ _ _ _ _ _ _ _ (run_inv _ _ H1) H2) as (g2 & A2 & B2).
  exists g1, g2. rewrite gexec_app, A1. auto.
Qed.

(** *** C82: a run is the textbook algorithm *)
(** at the start of every generation the population is what the challenges
    started so far would have left, performed one after the other; they are
    [lkg s] complete generations *)
Theorem C82_generation_boundary : forall es s, lexec start es = Some s -> lph s = LTop -> prun (lch s) = true ->
  pop (lch s) = seq_run 0 (lrequests es) p0 /\ length (lrequests es) = lkg s * N.
Proof.
  intros es s H E Pr. assert (LI := run_inv es s H). destruct LI as [_ _ Ph]. unfold phinv in Ph. rewrite E in Ph.
  destruct Ph as (P1 & P2 & _ & P3). rewrite <- (run_reqs es s H). split; auto.
  rewrite map_length, (shape_len _ _ _ _ P2). lia.
Qed.
(** so one generation is one pass over the members, first to last *)
Theorem C82_one_generation : forall es1 es2 s1 s2, lexec start es1 = Some s1 -> lexec s1 es2 = Some s2 ->
  lph s1 = LTop -> lph s2 = LTop -> lkg s2 = S (lkg s1) -> prun (lch s2) = true ->
  map kt (lrequests es2) = seq 0 N /\ pop (lch s2) = seq_run (lkg s1 * N) (lrequests es2) (pop (lch s1)).
Proof.
  intros es1 es2 s1 s2 H1 H2 E1 E2 Ek Pr.
  assert (H : lexec start (es1 ++ es2) = Some s2).
  { clear - H1 H2. revert H1. generalize start. induction es1 as [|e es1 IH]; simpl; intros s H1.
    - injection H1 as ->. exact H2.
    - destruct (lstep s e); [|discriminate]. now apply IH. }
  assert (Pr1 : prun (lch s1) = true).
  { destruct (lexec_path _ _ _ _ _ _ _ _ _ _ _ _ _ (run_inv _ _ H1) H2) as (g2 & A2 & _). apply gexec_exec in A2.
    clear - A2 Pr. revert A2. generalize (lch s1). induction g2 as [|e g2 IH]; simpl; intros c A; [now injection A as ->|].
    destruct (step mk ev better histcrash xSSE c e) as [c1|] eqn:E; [|discriminate]. eapply prun_mono; [exact E|]. now apply IH. }
  destruct (C82_generation_boundary es1 s1 H1 E1 Pr1) as [A1 B1].
  destruct (C82_generation_boundary _ s2 H E2 Pr) as [A2 B2].
  assert (LA : lrequests (es1 ++ es2) = lrequests es1 ++ lrequests es2) by apply flat_map_app.
  rewrite LA in A2, B2. rewrite app_length in B2. split.
  - assert (LI := run_inv _ s2 H). destruct LI as [_ _ Ph]. unfold phinv in Ph. rewrite E2 in Ph. destruct Ph as (_ & S2 & _).
    assert (LI := run_inv _ s1 H1). destruct LI as [_ _ Ph]. unfold phinv in Ph. rewrite E1 in Ph. destruct Ph as (_ & S1 & _).
    rewrite Ek in S2. apply (proj2 (shape_full p0 (lch s2) (lkg s1))) in S2.
    unfold shape, targets in S1, S2. rewrite <- map_map, (run_reqs _ _ H1), app_nil_r in S1.
    rewrite <- map_map, (run_reqs _ _ H), LA, map_app, S1 in S2. now apply app_inv_head in S2.
  - rewrite A2, seq_run_app, B1, A1. reflexivity.
Qed.
(** the population returned by a run that ended by itself *)
Theorem C82_whole_run : forall es s w, lexec start es = Some s -> lph s = LEnd w -> w <> RShutdown -> prun (lch s) = true ->
  pop (lch s) = seq_run 0 (lrequests es) p0 /\
  (exists g, length (lrequests es) = g * N /\ (w = RMaxIter -> g = o_maxiter o)) /\ all_done (lch s).
Proof.
  intros es s w H E Nw Pr. assert (LI := run_inv es s H). destruct LI as [_ _ Ph]. unfold phinv in Ph. rewrite E in Ph.
  rewrite <- (run_reqs es s H), map_length.
  destruct w; try congruence; destruct Ph as (g & P1 & P2 & P3 & P4 & P5); (split; [auto|split; auto; exists g; split; auto; rewrite (shape_len _ _ _ _ P3); lia]).
Qed.

(** *** C83: a run is a run of RunModel.v *)
(** the whole run as C25 and C26 see it: some sequence of outcomes of the
    generations gives exactly this end; the outcome of each generation before the
    last one was that all challenges finished with nobody calling shutdown *)
Theorem C83_refines : forall es s w, lexec start es = Some s -> lph s = LEnd w ->
  exists gs, RunModel.run npsin up0 up1 o gs (mkRst true fm 0 sc) = (lrs s, ltr s, w) /\
    (forall k, k < lkg s -> RunModel.g_wait (gs k) = true /\ g_loop (gs k) = true /\ g_chal (gs k) = ChDone).
Proof.
  intros es s w H E.
  destruct (rinv_exec mk ev better histcrash xSSE npsin up0 up1 o p0 (mkRst true fm 0 sc) es start s start_inv (rinv_init _ _ _ _ _ _ _) H) as (gs & Q & X).
  rewrite E in X. exists gs. auto.
Qed.
(** a run reported as stopped has been stopped *)
Theorem C83_stopped : forall es s, lexec start es = Some s -> lph s = LEnd RShutdown -> ChalModel.run (lch s) = false.
Proof. intros es s H E. assert (LI := run_inv es s H). destruct LI as [_ _ Ph]. unfold phinv in Ph. rewrite E in Ph. tauto. Qed.

(** *** C84: a run ends *)
(** [inner es]: events other than calls of shutdown and abort from outside;
    [aborts es]: the calls of Population.abort *)
Theorem C84_bounded : forall es s, lexec start es = Some s ->
  inner es <= o_maxiter o * (N * (N + 10) + 3) + 2 + aborts es * N.
Proof.
  intros es s H. assert (X := potential_exec _ _ _ _ _ _ _ _ _ _ es _ _ start_inv H).
  assert (Y : potential o p0 start <= o_maxiter o * (N * (N + 10) + 3) + 2); [|lia].
  unfold potential, linit, loop_head, left. destruct (_ <? _); cbn [lch lph lkg r_run]; rewrite ?Nat.sub_0_r;
  unfold total, init; simpl; lia.
Qed.
Theorem C84_goes_on : 4 <= N -> forall es s, lexec start es = Some s ->
  (forall w, lph s <> LEnd w) -> exists e s', linternal e = true /\ lstep s e = Some s'.
Proof.
  intros H4 es s H NE. apply (loop_progress mk ev better histcrash xSSE npsin up0 up1 o p0); auto. now apply (run_inv es).
Qed.
(** when nothing more can happen by itself, the run has ended *)
Theorem C84_ends : 4 <= N -> forall es s, lexec start es = Some s ->
  (forall e, linternal e = true -> lstep s e = None) -> exists w, lph s = LEnd w.
Proof.
  intros H4 es s H Nx. destruct (lph s) as [|f k|f|w|w] eqn:E; [..|eauto];
  (destruct (C84_goes_on H4 es s H) as (e & s' & A & B); [intros; rewrite E; discriminate|rewrite (Nx e A) in B; discriminate]).
Qed.

(** *** C85: what is left behind by a run that has ended *)
(** nothing changes the population any more, whatever still happens: challenges
    being evaluated when the run was stopped come to nothing *)
Lemma lend_step : forall s e s' w, LInv s -> lph s = LEnd w -> lstep s e = Some s' ->
  lph s' = LEnd w /\ exists ev', LC ev' = e /\ step mk ev better histcrash xSSE (lch s) ev' = Some (lch s').
Proof.
  intros s e s' w _ E H. destruct e as [e| | | | | | |]; simpl in H; try (rewrite E in H; discriminate).
  destruct e; try discriminate; match type of H with context[step _ _ _ _ _ ?c ?e0] => destruct (step mk ev better histcrash xSSE c e0) eqn:Es; [|discriminate]; injection H as <-; simpl; split; auto; exists e0; auto end.
Qed.
Theorem C85_result_is_final : forall es1 es2 s1 s2 w, lexec start es1 = Some s1 -> lph s1 = LEnd w -> lexec s1 es2 = Some s2 ->
  lph s2 = LEnd w /\ pop (lch s2) = pop (lch s1).
Proof.
  intros es1 es2. revert es1. induction es2 as [|e es2 IH]; intros es1 s1 s2 w H1 E H2.
  - simpl in H2. injection H2 as <-. auto.
  - simpl in H2. destruct (lstep s1 e) as [s|] eqn:Es; [|discriminate].
    assert (LI := run_inv es1 s1 H1). destruct (lend_step s1 e s w LI E Es) as (E' & e' & <- & St).
    assert (H1' : lexec start (es1 ++ [LC e']) = Some s).
    { clear - H1 Es. revert H1. generalize start. induction es1 as [|a es1 IH]; intros s0 H1.
      - simpl in H1. injection H1 as ->. cbn [app LoopModel.lexec]. now rewrite Es.
      - simpl in H1. cbn [app LoopModel.lexec]. destruct (lstep s0 a); [|discriminate]. now apply IH. }
    destruct (IH _ s s2 w H1' E' H2) as [A B]. split; auto. rewrite B.
    destruct LI as [R _ Ph]. unfold phinv in Ph. rewrite E in Ph.
    destruct (ChalModel.run (lch s1)) eqn:Er.
    + assert (AD : all_done (lch s1)).
      { destruct w; try (destruct Ph as (g & _ & _ & _ & [X _]); exact X). destruct Ph as [X _]. congruence. }
      assert (NR : forall q, e' <> ERequest q) by (intros q ->; discriminate Es).
      clear - St AD NR.
      destruct e'; simpl in St; try (now elim (NR q));
        try (destruct (nth_error (cs (lch s1)) c) as [[q p]|] eqn:Ec; [|discriminate]; assert (X := AD _ _ Ec); simpl in X; subst p; discriminate);
        try (injection St as <-; reflexivity).
      destruct (nth_error (abq (lch s1)) n); [|discriminate]. injection St as <-.
      unfold release1. simpl. destruct (nth_error (locks (lch s1)) n0) as [[|]|]; reflexivity.
    + assert (X : exec mk ev better histcrash xSSE (lch s1) [e'] = Some (lch s)) by (simpl; now rewrite St).
      exact (proj1 (frozen mk ev better histcrash xSSE [e'] (lch s1) (lch s) Er X)).
Qed.
(** a run that ended without an exception is not running: a second run, or
    whatever looks at the flag, finds it stopped *)
Lemma stopped_exec : forall es s s', LInv s -> lexec s es = Some s' ->
  (forall w, lph s = LEnd w -> (forall e, w <> RRaised e) -> ChalModel.run (lch s) = false) ->
  (forall w, lph s' = LEnd w -> (forall e, w <> RRaised e) -> ChalModel.run (lch s') = false).
Proof.
  induction es as [|e es IH]; intros s s' LI H P; simpl in H; [injection H as <-; exact P|].
  destruct (lstep s e) as [s1|] eqn:Es; [|discriminate]. assert (LI1 := LInv_step _ _ _ _ _ _ _ _ _ _ _ _ _ LI Es).
  refine (IH s1 s' LI1 H _). clear IH H. intros w E Nw.
  destruct (lph s) as [|f k|f|v|v] eqn:Ep.
  1-4: destruct LI1 as [_ Rr Ph]; unfold phinv in Ph; rewrite E in Ph; destruct w as [| | |x];
    [..|now elim (Nw x)]; try tauto; apply Rr; clear Ph Rr; revert E;
    destruct e as [e| | | | | | |]; cbn [LoopModel.lstep] in Es; rewrite ?Ep in Es; try discriminate;
    try (destruct e; try discriminate; match type of Es with context[step _ _ _ _ _ ?c ?e0] => destruct (step mk ev better histcrash xSSE c e0); [|discriminate]; injection Es as <-; cbn [lph]; rewrite ?Ep; discriminate end);
    repeat match type of Es with (if ?b then _ else _) = _ => destruct b end; try discriminate;
    try (match type of Es with context[step _ _ _ _ _ ?c ?e0] => destruct (step mk ev better histcrash xSSE c e0); [|discriminate] end);
    injection Es as <-;
    try (cbn [lph]; discriminate); try reflexivity;
    try (unfold gen_end, loop_head, left; destruct (generation _ _ _ _ _ _ _) as [[r l] [[]|]]; try destruct (_ <? _); try destruct (r_run r) eqn:Er; cbn [lph lrs]; try discriminate; auto).
  - destruct (lend_step s e s1 v LI Ep Es) as (E' & e' & _ & St).
    assert (X : exec mk ev better histcrash xSSE (lch s) [e'] = Some (lch s1)) by (simpl; now rewrite St).
    refine (proj2 (frozen mk ev better histcrash xSSE [e'] (lch s) (lch s1) _ X)). apply (P v); congruence.
Qed.
Theorem C85_not_running : forall es s w, lexec start es = Some s -> lph s = LEnd w -> (forall e, w <> RRaised e) ->
  ChalModel.run (lch s) = false.
Proof.
  intros es s w H. apply (stopped_exec es start s start_inv H).
  intros v. unfold linit, loop_head, left. destruct (_ <? _); cbn [lph lrs]; simpl; discriminate.
Qed.
End Generic.
Print Assumptions C80_targets_in_turn.
Print Assumptions C80_barrier.
Print Assumptions C80_failure_is_final.
Print Assumptions C81_structured.
Print Assumptions C82_generation_boundary.
Print Assumptions C82_one_generation.
Print Assumptions C82_whole_run.
Print Assumptions C85_result_is_final.
Print Assumptions C85_not_running.
Print Assumptions C83_refines.
Print Assumptions C83_stopped.
Print Assumptions C84_bounded.
Print Assumptions C84_goes_on.
Print Assumptions C84_ends.

(** C81 with actual individuals: from any point of a run to any later one, the
    SSE in a slot never increases, an individual with a NaN SSE keeps its slot,
    and some member is at least as good as any earlier one *)
Section Actual.
Variables (p : pm) (cons : list constr) (CR : f64) (F : nat -> f64) (j : nat -> nat) (u : nat -> nat -> f64).
Variables (func : nat -> f64 -> option (list f64) -> evalres) (t : nat -> f64) (PS : nat -> evpop).
Variables (histcrash : nat -> bool) (xSSE : bool) (npsin : f64 -> f64) (up0 up1 : f64) (o : opts).
Notation ilexec := (lexec (mk_indiv p cons CR F j u) (ev_indiv func t PS) ind_lt histcrash xSSE npsin up0 up1 o).
Theorem C81_SSE_never_increases : forall p0 fm sc es1 es2 s1 s2 k a,
  ilexec (linit o p0 fm sc) es1 = Some s1 -> ilexec s1 es2 = Some s2 -> nth_error (pop (lch s1)) k = Some a ->
  exists b, nth_error (pop (lch s2)) k = Some b /\
    (a = b \/ isnan (ind_SSE a) = false /\ isnan (ind_SSE b) = false /\ (key (ind_SSE b) < key (ind_SSE a))%R).
Proof.
  intros p0 fm sc es1 es2 s1 s2 k a H1 H2 Ha.
  destruct (C81_structured _ _ _ _ _ _ _ _ _ _ _ _ es1 es2 s1 s2 H1 H2) as (g1 & g2 & A1 & _ & A2 & _).
  exact (C23_SSE_never_increases p cons CR F j u func t PS histcrash xSSE p0 g1 g2 _ _ k a A1 A2 Ha).
Qed.
Theorem C81_best_never_worse : forall p0 fm sc es1 es2 s1 s2 a,
  ilexec (linit o p0 fm sc) es1 = Some s1 -> ilexec s1 es2 = Some s2 ->
  In a (pop (lch s1)) -> isnan (ind_SSE a) = false ->
  exists b, In b (pop (lch s2)) /\ isnan (ind_SSE b) = false /\ (key (ind_SSE b) <= key (ind_SSE a))%R.
Proof.
  intros p0 fm sc es1 es2 s1 s2 a H1 H2 Ha Na.
  destruct (C81_structured _ _ _ _ _ _ _ _ _ _ _ _ es1 es2 s1 s2 H1 H2) as (g1 & g2 & A1 & _ & A2 & _).
  exact (C23_best_never_worse p cons CR F j u func t PS histcrash xSSE p0 g1 g2 _ _ a A1 A2 Ha Na).
Qed.
End Actual.
Print Assumptions C81_SSE_never_increases.
Print Assumptions C81_best_never_worse.

(** ** A run of two generations over five individuals, which are their SSEs *)
Definition yp0 : list nat := [50; 40; 30; 20; 10].
Definition yopts : opts := mkOpts 2 true 10 None true.
Definition yfm : fman := fm_init (FSingle (flit 3 (-4))) (flit 3602879701896397 (-52)) 5 true.
Definition ysc : score := mkScore None fone.
(** constraints of challenge 3 fail; [bad] challenges raise, [fatal] ones fail to evaluate *)
Definition ymk (bad : option nat) (c it ib i0 i1 : nat) : mkres nat :=
  if match bad with Some b => c =? b | None => false end then MkCrash else if c =? 3 then Rejected else Candidate (ib + (i0 - i1)).
Definition yev (c it ch : nat) : option nat := if ch =? 0 then None else Some ch.
Definition yrun (bad : option nat) := lexec (ymk bad) yev Nat.ltb (fun _ => false) true (fun _ => flit (-1) 0) c_up89 c_up87 yopts (linit yopts yp0 yfm ysc).
(** one challenge's own steps *)
Definition ysteps (c : nat) : list levent := map LC [EResume c; ERelease c; ERelease c; ERelease c; EMutate c; EEvalDone c; ERelT c].
Definition ystepsR (c : nat) : list levent := map LC [EResume c; ERelease c; ERelease c; ERelease c; EMutate c; ERelT c].
(** generation 1: the challenges overlap; generation 2: one after the other *)
Definition ygen1 : list levent :=
  [LGo; LReq (mkQuad 0 4 1 2); LReq (mkQuad 1 4 0 3)] ++ map LC [EResume 0; ERelease 0; ERelease 0] ++
  [LReq (mkQuad 2 4 0 1)] ++ map LC [ERelease 0; EMutate 0; EEvalDone 0] ++ [LReq (mkQuad 3 4 0 1); LReq (mkQuad 4 3 1 2); LAll; LC (ERelT 0)]
  ++ ysteps 1 ++ ysteps 2 ++ ystepsR 3 ++ ysteps 4 ++ [LJoin [2; 0]%Z (flit 1 (-1)) FOk].
Definition ygen2 (shut : bool) : list levent :=
  [LGo] ++ [LReq (mkQuad 0 4 1 2)] ++ ysteps 5 ++ [LReq (mkQuad 1 4 0 3)] ++ ysteps 6 ++ (if shut then [LC EShutdown; LBreak] else
  [LReq (mkQuad 2 4 0 1)] ++ ysteps 7 ++ [LReq (mkQuad 3 4 2 0)] ++ ysteps 8 ++ [LReq (mkQuad 4 0 1 2)] ++ ysteps 9 ++ [LAll; LJoin [] (flit 1 (-1)) FOk; LFinish]).
Definition yview (x : option (lst nat)) := option_map (fun s => (lph s, lkg s, pop (lch s), targets (lch s), ltr s)) x.
Example C80_C82_nonvacuous :
  yview (yrun None ygen1) = Some (LTop, 1, [20; 10; 20; 20; 10], [0; 1; 2; 3; 4], [EStart 0; EUp 0; EFunc 0]) /\
  yview (yrun None (ygen1 ++ ygen2 false)) =
    Some (LEnd RMaxIter, 2, [10; 10; 10; 10; 10], [0; 1; 2; 3; 4; 0; 1; 2; 3; 4], [EStart 0; EUp 0; EFunc 0; EStart 1; EDown 1 true; EFunc 1; EReport]) /\
  option_map (fun s => prun (lch s)) (yrun None (ygen1 ++ ygen2 false)) = Some true.
Proof. vm_compute. auto. Qed.
Example C83_stopped_nonvacuous :
  yview (yrun None (ygen1 ++ ygen2 true)) = Some (LEnd RShutdown, 1, [10; 10; 20; 20; 10], [0; 1; 2; 3; 4; 0; 1], [EStart 0; EUp 0; EFunc 0; EStart 1]).
Proof. vm_compute. reflexivity. Qed.
(** challenge 1 raises while the others are waiting for it *)
Definition yfail : list levent := firstn 19 ygen1 ++ [LBreak].
Example C80_failure_nonvacuous :
  yview (yrun (Some 1) yfail) = Some (LEnd RShutdown, 0, [20; 40; 30; 20; 10], [0; 1; 2; 3; 4], [EStart 0]) /\
  option_map (fun s => map pfail (cs (lch s))) (yrun (Some 1) yfail) = Some [false; true; false; false; false].
Proof. vm_compute. split; reflexivity. Qed.
(** ... a run without failures, and the run above with one *)
Example C84_nonvacuous : 4 <= length yp0 /\
  inner (ygen1 ++ ygen2 false) = length (ygen1 ++ ygen2 false) /\ option_map lph (yrun (Some 1) (firstn 19 ygen1)) = Some (LWait 0) /\
  option_map (fun s => map pfail (cs (lch s))) (yrun (Some 1) (firstn 19 ygen1)) = Some [false; true; false; false; false].
Proof. split; [simpl; lia|]. vm_compute. auto. Qed.
(** stopped while challenge 1 was being evaluated, which then would have won *)
Definition yshut : list levent := firstn 19 ygen1 ++ [LC EShutdown; LBreak].
Example C85_nonvacuous :
  option_map (fun s => (lph s, pop (lch s), map cpc (firstn 2 (cs (lch s))))) (yrun None yshut) =
    Some (LEnd RShutdown, [20; 40; 30; 20; 10], [PDone; PEval 40 10]) /\
  option_map (fun s => (pop (lch s), map cpc (firstn 2 (cs (lch s))))) (yrun None (yshut ++ [LC (EEvalDone 1); LC (ERelT 1)])) =
    Some ([20; 40; 30; 20; 10], [PDone; PDone]).
Proof. vm_compute. split; reflexivity. Qed.
(** a run that ends with an exception is still marked as running: the goal of
    goalSSE is compared with a method (C25) *)
Definition ygoal : opts := mkOpts 2 true 10 (Some fone) true.
Definition yrung := lexec (ymk None) yev Nat.ltb (fun _ => false) true (fun _ => flit (-1) 0) c_up89 c_up87 ygoal (linit ygoal yp0 yfm ysc).
Theorem C85_raised_refuted : ~ forall (o : opts) p0 es s w,
  lexec (ymk None) yev Nat.ltb (fun _ => false) true (fun _ => flit (-1) 0) c_up89 c_up87 o (linit o p0 yfm ysc) es = Some s ->
  lph s = LEnd w -> ChalModel.run (lch s) = false.
Proof.
  intros H.
  assert (V : option_map (fun s => (lph s, ChalModel.run (lch s))) (yrung ygen1) = Some (LEnd (RRaised TypeError), true)) by (vm_compute; reflexivity).
  assert (X : forall es, yrung es = lexec (ymk None) yev Nat.ltb (fun _ => false) true (fun _ => flit (-1) 0) c_up89 c_up87 ygoal (linit ygoal yp0 yfm ysc) es) by reflexivity.
  destruct (yrung ygen1) as [s|] eqn:E; [|discriminate V]. rewrite X in E. simpl in V. injection V as V1 V2.
  specialize (H ygoal yp0 ygen1 s _ E V1). congruence.
Qed.
Print Assumptions C85_raised_refuted.
