(** * Properties C28-C30, C56 and the admission part of C57: population setup.
    Statements; proofs in SetupProofs.v *)
From Coq Require Import String List Bool Arith ZArith Lia.
From Flocq Require Import BinarySingleNaN.
From Verif Require Import Flt Py IndivModel ParamModel ParamProofs ParamProps SetupModel SetupProofs FManModel RunModel.
Import ListNotations.
Local Open Scope nat_scope.

(** what the code's own configuration guarantees: usable bounds, at least two
    members (Np >= 20, property C08), N_maxParallel = 12 and maxTries = 2000
    positive, and Np x Nd matrices with entries in [0,1] from numpy or pyDOE *)
Definition okcfg (p : pm) (Np maxPar maxTries : nat) (iv : nat -> list (list f64)) : Prop :=
  okpm p /\ 2 <= Np /\ 1 <= maxPar /\ 1 <= maxTries /\ forall g, unit_rows p Np (iv g).

Section Statements.
Variable p : pm.
Variable cs : list constr.
Variable Np maxPar maxTries : nat.
Variable blank : bool.
Variable iv : nat -> list (list f64).

(** [s] is reached from a call of setup with self.running = [run] *)
Definition reached (run : option bool) (es : list sev) (s : sst) : Prop :=
  sexec p cs Np maxPar maxTries blank iv (setup_start run) es = Some s.

(** C28: when setup fires with True, the population is running, has exactly Np
    different members, and each is inside the bounds, was obtained by limiting
    values that all constraints accept, and has been evaluated to a non-fatal,
    non-infinite SSE (or holds the infinite placeholder if blank).  The
    exception: an individual that a report callback complained about after it
    was admitted *)
Theorem C28_setup_delivers : forall run es s, okcfg p Np maxPar maxTries iv ->
  reached run (es ++ [SAll]) s -> s_pc s = PFired (Some true) ->
  s_run s = Some true /\ length (s_list s) = Np /\ NoDup (s_list s) /\
  forall n, In n (s_list s) -> exists i, nth_error (s_inds s) n = Some i /\
    inbounds p (ivalues i) /\
    (exists v, ivalues i = pm_limit p v /\ length v = length (pm_mins p) /\
      Forall (fun f : constr => f (mk_params (pm_names p) v) = Ok true) cs) /\
    if blank then istored i = Some finf
    else In (SComplain n) es \/
         exists x, istored i = Some x /\ (isnan x = true \/ fleb fzero x = true /\ x <> finf).
Proof.
  intros run es s (Hp & HN & Hm & Ht & Hi) H Epc. assert (I := inv_reach p cs Np maxPar maxTries blank iv Hp HN Hm Ht Hi _ _ _ H).
  assert (R : s_run s = Some true).
  { unfold reached in H. clear I.
    assert (Q : forall es s0, sexec p cs Np maxPar maxTries blank iv s0 (es ++ [SAll]) = Some s -> s_run s = Some true).
    { clear H es run. induction es as [|e es IH]; cbn [sexec app]; intros s0 H.
      - unfold sstep in H. destruct (s_pc s0) eqn:E; try discriminate. destruct (s_trk s0); [|discriminate].
        injection H as <-. unfold finish in *. destruct (is_run (s_run s0)); [reflexivity|discriminate].
      - destruct (sstep p cs Np maxPar maxTries blank iv s0 e) as [s1|]; [eauto|discriminate]. }
    eapply Q; eauto. }
  split; auto. assert (T := i_pc _ _ _ _ _ _ _ I). rewrite Epc in T. destruct T as (_ & _ & T).
  split; auto. split; [apply (i_nd _ _ _ _ _ _ _ I)|].
  intros n Hn. destruct (nth_error (s_inds s) n) as [i|] eqn:Ei.
  2:{ apply nth_error_None in Ei. apply (i_lt _ _ _ _ _ _ _ I) in Hn. lia. }
  exists i. split; auto. destruct (i_bnd _ _ _ _ _ _ _ I n i Ei) as (v & [V1 V2] & V3 & V4).
  split; [rewrite V3; now apply pm_limit_in|]. split.
  - exists v. split; auto. split; auto. apply passes_iff. apply V4. now rewrite R.
  - assert (O := i_ok _ _ _ _ _ _ _ I n i Hn Ei). destruct blank; auto.
    destruct O as [O1 [O2|[O2 O3]]].
    + left. apply complained_In in O2. destruct O2 as [[]|O2]. apply in_app_iff in O2. simpl in O2. intuition discriminate.
    + right. destruct (istored i) as [x|] eqn:Ex; [|tauto]. exists x. split; auto.
      unfold ind_bool in O2. unfold ind_SSE in O3. rewrite Ex in *. destruct (isnan x) eqn:N; auto. right. split; auto.
      intros ->. discriminate.
Qed.

(** C28: never more than Np members, at any time; they are pairwise different
    individuals and none of them is still being evaluated *)
Theorem C28_never_more : forall run es s, okcfg p Np maxPar maxTries iv -> reached run es s ->
  length (s_list s) <= Np /\ NoDup (s_list s) /\ forall n, In n (s_list s) -> ~ In n (s_fly s).
Proof.
  intros run es s (Hp & HN & Hm & Ht & Hi) H. assert (I := inv_reach p cs Np maxPar maxTries blank iv Hp HN Hm Ht Hi _ _ _ H).
  split; [apply (i_len _ _ _ _ _ _ _ I)|]. split; [apply (i_nd _ _ _ _ _ _ _ I)|apply (i_dis _ _ _ _ _ _ _ I)].
Qed.
(** C28: setup never gets stuck: with no evaluation pending it has ended or its
    next step is enabled *)
Theorem C28_not_stuck : forall run es s, okcfg p Np maxPar maxTries iv -> reached run es s -> s_fly s = [] ->
  (exists r, s_pc s = PFired r) \/ (exists e, s_pc s = PFailed e) \/
  exists e s', (e = SHead \/ e = SFewer \/ e = SWaited \/ e = SAll) /\ sstep p cs Np maxPar maxTries blank iv s e = Some s'.
Proof.
  intros run es s (Hp & HN & Hm & Ht & Hi) H F. assert (I := inv_reach p cs Np maxPar maxTries blank iv Hp HN Hm Ht Hi _ _ _ H).
  assert (P := progress p cs Np maxPar maxTries blank iv HN Hm Ht _ s I F).
  destruct (s_pc s); eauto.
Qed.
(** C28: the only exception setup can end with is one raised by a constraint *)
Theorem C28_failure_cause : forall run es s e, okcfg p Np maxPar maxTries iv -> reached run es s -> s_pc s = PFailed e ->
  exists f v, In f cs /\ f (mk_params (pm_names p) v) = Raise e.
Proof.
  intros run es s e (Hp & HN & Hm & Ht & Hi) H E. assert (I := inv_reach p cs Np maxPar maxTries blank iv Hp HN Hm Ht Hi _ _ _ H).
  assert (T := i_pc _ _ _ _ _ _ _ I). rewrite E in T. destruct T as (_ & _ & v & T).
  unfold passes, passesConstraints in T. destruct cs as [|c l]; [discriminate|].
  assert (G : forall l d, check_all l d = Raise e -> exists f, In f l /\ f d = Raise e).
  { clear. induction l as [|f l IH]; simpl; intros d H; [discriminate|]. destruct (f d) as [[]|e'] eqn:Ef; try discriminate.
    - destruct (IH d H) as (g & A & B). eauto.
    - injection H as ->. eauto. }
  destruct (G _ _ T) as (f & A & B). eauto.
Qed.

(** C29 *)
Theorem C29_parallel_limit : forall run es s, okcfg p Np maxPar maxTries iv -> reached run es s ->
  length (s_fly s) <= maxPar /\ NoDup (s_fly s).
Proof.
  intros run es s (Hp & HN & Hm & Ht & Hi) H. assert (I := inv_reach p cs Np maxPar maxTries blank iv Hp HN Hm Ht Hi _ _ _ H).
  split; [|apply (i_fnd _ _ _ _ _ _ _ I)]. assert (T := i_pc _ _ _ _ _ _ _ I).
  destruct (s_pc s); try (intuition lia; fail). destruct T as (_ & X & _). rewrite X. simpl. lia.
Qed.

(** C30: aborted before the call: fires with None at once, nothing evaluated *)
Theorem C30_aborted_before : setup_start (Some false) = mkS (Some false) (mkSrc 0 0) [] [] [] [] 0 [] (PFired None).
Proof. reflexivity. Qed.
(** C30: aborted during setup (state [s], not yet fired with True): whatever
    happens later, the population stays stopped, setup never fires with True,
    and no further evaluation is started *)
Theorem C30_aborted_during : forall s es s', s_run s = Some false -> s_pc s <> PFired (Some true) -> s_pc s <> PFired (Some false) ->
  sexec p cs Np maxPar maxTries blank iv s es = Some s' ->
  s_run s' = Some false /\ s_pc s' <> PFired (Some true) /\ s_args s' = s_args s.
Proof.
  intros s es s' R N1 N2 H. destruct (stopped_exec p cs Np maxPar maxTries blank iv es s s' R) as (A & B & C); auto.
  - destruct (s_pc s) as [| | | |[[]|]|]; cbn; auto.
  - split; auto. split; auto. intros E. rewrite E in B. exact B.
Qed.
(** C30: and it does fire, with None: once the pending evaluations are over, at
    most three more steps of setup itself are needed, unless it has already
    failed with a constraint's exception *)
Theorem C30_fires_None : forall run es s, okcfg p Np maxPar maxTries iv -> reached run es s -> s_run s = Some false ->
  s_fly s = [] -> s_pc s <> PFired (Some true) -> (forall e, s_pc s <> PFailed e) ->
  exists es' s', length es' <= 3 /\ sexec p cs Np maxPar maxTries blank iv s es' = Some s' /\ s_pc s' = PFired None.
Proof.
  intros run es s (Hp & HN & Hm & Ht & Hi) H R F N1 N2.
  assert (I := inv_reach p cs Np maxPar maxTries blank iv Hp HN Hm Ht Hi _ _ _ H).
  apply (stopped_fires p cs Np maxPar maxTries blank iv HN Hm Ht _ s I); auto.
  assert (T := i_pc _ _ _ _ _ _ _ I). destruct (s_pc s) as [| | | |[[]|]|]; cbn; auto; intuition.
Qed.
(** C30: the causes.  A call of abort, an evaluation that fails or returns a
    negative SSE, and constraints that reject every candidate *)
Theorem C30_user_abort : forall s, exists s', sstep p cs Np maxPar maxTries blank iv s SAbort = Some s' /\ s_run s' = Some false.
Proof. intros s. eexists. split; reflexivity. Qed.
Theorem C30_fatal_evaluation : forall run es s n r t rp s', okcfg p Np maxPar maxTries iv -> reached run es s ->
  sstep p cs Np maxPar maxTries blank iv s (SDone n r t rp) = Some s' ->
  r = EvFailure \/ (exists x, r = EvSSE (Some x) /\ fltb x fzero = true) -> s_run s' = Some false.
Proof.
  intros run es s n r t rp s' (Hp & HN & Hm & Ht & Hi) H E Hr.
  assert (I := inv_reach p cs Np maxPar maxTries blank iv Hp HN Hm Ht Hi _ _ _ H).
  eapply (fatal_aborts p cs Np maxPar maxTries blank iv HN Hm Ht); [exact E|apply (i_flt _ _ _ _ _ _ _ I)|]. destruct Hr as [->|(x & -> & Hx)]; auto.
Qed.
Theorem C30_unsatisfiable : forall run es s s', okcfg p Np maxPar maxTries iv -> reached run es s ->
  is_run (s_run s) = true -> length (s_list s) < Np ->
  (forall v, passesConstraints (pm_names p) cs v = Ok false) ->
  sstep p cs Np maxPar maxTries blank iv s SHead = Some s' -> s_run s' = Some false.
Proof.
  intros run es s s' (Hp & HN & Hm & Ht & Hi) H R L Hf E.
  assert (I := inv_reach p cs Np maxPar maxTries blank iv Hp HN Hm Ht Hi _ _ _ H).
  unfold sstep in E. destruct (s_pc s) eqn:Epc; try discriminate. injection E as <-.
  apply (unsat_aborts p cs Np maxPar maxTries blank iv Hp HN Hm Ht Hi _ s I); auto. intros v _. exact (Hf v).
Qed.
(** C30: DifferentialEvolution called with the stopped population returns at
    once: no generation, no evaluation *)
Theorem C30_de_returns : forall s npsin up0 up1 o F CR N ad running sc gs, s_run s = Some false ->
  de_call npsin up0 up1 o F CR N ad (negb (is_run (s_run s))) running sc gs = None.
Proof. intros s npsin up0 up1 o F CR N ad running sc gs ->. reflexivity. Qed.

(** C56: without constraints the n-th individual made by setup comes from row
    n mod (Np-1) of hypercube n / (Np-1).  So the first Np-1 come from the
    first hypercube and the next from the first row of the second one, and the
    last row, Np-1, of a hypercube is not used *)
Theorem C56_rows_used : forall run es s n i, okcfg p Np maxPar maxTries iv -> cs = [] -> reached run es s ->
  nth_error (s_inds s) n = Some i ->
  exists u, nth_error (iv (n / (Np - 1))) (n mod (Np - 1)) = Some u /\
            ivalues i = pm_limit p (map3 fromUnity1 (pm_mins p) (pm_maxs p) u).
Proof.
  intros run es s n i (Hp & HN & Hm & Ht & Hi) Hc H E.
  destruct (rinv_reach p cs Np maxPar maxTries blank iv Hp HN Hm Ht Hi _ _ _ Hc H) as [_ R]. apply (R n i E).
Qed.
Theorem C56_last_row_unused : forall n, 2 <= Np -> n mod (Np - 1) <> Np - 1 /\
  (n < Np - 1 -> n / (Np - 1) = 0 /\ n mod (Np - 1) = n) /\ ((Np - 1) / (Np - 1) = 1 /\ (Np - 1) mod (Np - 1) = 0).
Proof.
  intros n H. split; [|split].
  - assert (X := Nat.mod_upper_bound n (Np - 1) ltac:(lia)). lia.
  - intros L. split; [now apply Nat.div_small|now apply Nat.mod_small].
  - split; [apply Nat.div_same; lia|apply Nat.mod_same; lia].
Qed.

(** C57: an individual evaluated to NaN while members are missing is admitted *)
Theorem C57_NaN_admitted : forall run es s n t s', okcfg p Np maxPar maxTries iv -> reached run es s ->
  length (s_list s) < Np -> sstep p cs Np maxPar maxTries blank iv s (SDone n (EvSSE (Some fnan)) t RpFine) = Some s' ->
  In n (s_list s') /\ exists i, nth_error (s_inds s') n = Some i /\ istored i = Some fnan.
Proof.
  intros run es s n t s' (Hp & HN & Hm & Ht & Hi) H L E.
  assert (I := inv_reach p cs Np maxPar maxTries blank iv Hp HN Hm Ht Hi _ _ _ H).
  unfold sstep in E. destruct (existsb (Nat.eqb n) (s_fly s)) eqn:X; [|discriminate]. injection E as <-.
  apply existsb_n in X. apply (i_flt _ _ _ _ _ _ _ I) in X. unfold eval_done.
  destruct (nth_error (s_inds s) n) as [i|] eqn:Ei; [|apply nth_error_None in Ei; lia].
  apply Nat.ltb_lt in L. cbn -[Nat.ltb]. rewrite L. cbn -[Nat.ltb]. split; [apply in_app_iff; simpl; auto|].
  eexists. rewrite upd_same by (now rewrite upd_length). split; reflexivity.
Qed.
End Statements.
Print Assumptions C28_setup_delivers.
Print Assumptions C28_never_more.
Print Assumptions C28_not_stuck.
Print Assumptions C28_failure_cause.
Print Assumptions C29_parallel_limit.
Print Assumptions C30_aborted_before.
Print Assumptions C30_aborted_during.
Print Assumptions C30_fires_None.
Print Assumptions C30_user_abort.
Print Assumptions C30_fatal_evaluation.
Print Assumptions C30_unsatisfiable.
Print Assumptions C30_de_returns.
Print Assumptions C56_rows_used.
Print Assumptions C56_last_row_unused.
Print Assumptions C57_NaN_admitted.

(** ** Examples: three members, at most two evaluations at a time *)
Definition ex_iv (g : nat) : list (list f64) :=
  [[fzero; flit 1 (-1)]; [flit 1 (-2); fone]; [fone; if g =? 0 then fzero else fone]].
Lemma ex_cfg : okcfg ex_pm 3 2 4 ex_iv.
Proof.
  split; [apply ex_pm_ok|]. repeat (split; [lia|]). intros g. split; [reflexivity|].
  unfold ex_iv. intros u [<-|[<-|[<-|[]]]]; (split; [reflexivity|]); repeat constructor; try reflexivity;
    destruct (g =? 0); reflexivity.
Qed.
(** rejects candidates whose alpha is not below 0; alpha is -5 for the first
    row of a hypercube and -2.5 for the second *)
Definition ex_cn : constr := fun d => match dict_get d "alpha" with Some x => Ok (fltb x fzero) | None => Raise KeyError end.
Definition ev_ok (n : nat) (z : Z) : sev := SDone n (EvSSE (Some (fofZ z))) fone RpFine.
(** candidate 1 finishes first, candidate 0 is infinite and rejected, 3 is NaN *)
Definition ex_es : list sev :=
  [SHead; SFewer; SHead; ev_ok 1 7; SFewer; SHead; SDone 0 (EvSSE (Some finf)) fone RpFine; ev_ok 2 5; SWaited; SHead;
   SDone 3 (EvSSE (Some fnan)) fone RpFine; SWaited; SHead].
Definition ex_final := sexec ex_pm [ex_cn] 3 2 4 false ex_iv (setup_start None) (ex_es ++ [SAll]).
Example C28_C29_example : option_map s_pc ex_final = Some (PFired (Some true)) /\ option_map s_list ex_final = Some [1; 2; 3] /\
  option_map (fun s => length (s_inds s)) ex_final = Some 4 /\ okcfg ex_pm 3 2 4 ex_iv.
Proof. repeat (split; [vm_compute; reflexivity|]). exact ex_cfg. Qed.
(** two evaluations in progress, a third one has to wait *)
Example C29_example : let x := sexec ex_pm [ex_cn] 3 2 4 false ex_iv (setup_start None) [SHead; SFewer; SHead] in
  option_map s_fly x = Some [0; 1] /\ match x with Some s => match sstep ex_pm [ex_cn] 3 2 4 false ex_iv s SFewer with None => true | _ => false end | None => false end = true.
Proof. vm_compute. auto. Qed.
Example C28_blank_example : let x := sexec ex_pm [] 3 2 4 true ex_iv (setup_start (Some true)) [SHead; SHead; SHead; SHead; SAll] in
  option_map s_pc x = Some (PFired (Some true)) /\ option_map s_list x = Some [0; 1; 2] /\ option_map s_args x = Some [].
Proof. vm_compute. auto. Qed.
(** an evaluation fails while another is running *)
Example C30_example : let x := sexec ex_pm [ex_cn] 3 2 4 false ex_iv (setup_start None)
    [SHead; SFewer; SHead; SDone 0 EvFailure fone RpFine; SFewer; SHead; ev_ok 1 7; SAll] in
  option_map s_pc x = Some (PFired None) /\ option_map s_run x = Some (Some false) /\ option_map s_list x = Some [1].
Proof. vm_compute. auto. Qed.
(** unsatisfiable constraints: one call of the user's function, with None *)
Example C30_unsat_example : let x := sexec ex_pm [fun _ => Ok false] 3 2 4 false ex_iv (setup_start None) [SHead; ev_ok 0 7; SFewer; SHead; SAll] in
  option_map s_pc x = Some (PFired None) /\ option_map s_args x = Some [None].
Proof. vm_compute. auto. Qed.
Example C56_example : let x := sexec ex_pm [] 3 2 4 true ex_iv (setup_start None) [SHead; SHead; SHead] in
  option_map (fun s => map (fun i => map (fun y => ftrunc y) (ivalues i)) (s_inds s)) x = Some [[-5; 5]; [-2; 10]; [-5; 5]]%Z.
Proof. vm_compute. auto. Qed.
