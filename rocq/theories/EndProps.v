(** * Property C111: from setup to the end of a run.  The population of
    SetupModel.v (ade/population.py:740-846) goes into a run of CompModel.v
    (ade/de.py:464-683, ade/report.py:117-192) *)
From Coq Require Import String List Bool Arith ZArith Lia Reals Lra.
From Verif Require Import Flt FltMore Py IndivModel IndivProofs ParamModel ParamProofs ParamProps SetupModel SetupProofs SetupProps.
From Verif Require Import FManModel RunModel ChalModel ChalProofs ChalSerial ChalLive ChalInst ChalProps LoopModel LoopProofs LoopProps DriftProps CompModel CompProps.
Import ListNotations.
Local Open Scope nat_scope.

(** ** Vocabulary *)
(** the user's function: the SSE for given values *)
Definition evalfn : Type := list f64 -> option f64.
(** every evaluation that ends in [es] has returned the function's SSE for the
    individual's values, or failed *)
Fixpoint honest (p : pm) (cs : list constr) (Np maxPar maxTries : nat) (iv : nat -> list (list f64)) (g : evalfn) (s : sst) (es : list sev) : Prop :=
  match es with
  | [] => True
  | e :: es =>
    match e with
    | SDone n r _ _ => forall i, nth_error (s_inds s) n = Some i -> r = EvFailure \/ r = EvSSE (g (ivalues i))
    | _ => True
    end /\ forall s', sstep p cs Np maxPar maxTries false iv s e = Some s' -> honest p cs Np maxPar maxTries iv g s' es
  end.
(** the same during the run; called with None, as after an abort, it returns None *)
Definition honest_func (g : evalfn) (func : nat -> option (list f64) -> evalres) : Prop :=
  forall c, (forall v, func c (Some v) = EvFailure \/ func c (Some v) = EvSSE (g v)) /\ (func c None = EvFailure \/ func c None = EvSSE None).
(** the individuals in the population's list, in its order *)
Definition delivered (s : sst) (l : list indiv) : Prop := Forall2 (fun n i => nth_error (s_inds s) n = Some i) (s_list s) l.

(** ** setup *)
Lemma upd_upd : forall {A} n (x y : A) l, upd n x (upd n y l) = upd n x l.
Proof. intros A n x y. induction n as [|n IH]; intros [|a l]; simpl; auto. now rewrite IH. Qed.
Section Setup.
Variables (p : pm) (cons : list constr) (Np maxPar maxTries : nat) (iv : nat -> list (list f64)) (g : evalfn).
Definition told (cm : list nat) (s : sst) : Prop := forall n, In n (s_list s) ->
  exists i, nth_error (s_inds s) n = Some i /\ (istored i = g (ivalues i) \/ In n cm).
Lemma told_step : forall cm s e s', inv p cons Np maxPar false cm s -> told cm s ->
  match e with SDone n r _ _ => forall i, nth_error (s_inds s) n = Some i -> r = EvFailure \/ r = EvSSE (g (ivalues i)) | _ => True end ->
  sstep p cons Np maxPar maxTries false iv s e = Some s' -> told (cm_of e cm) s'.
Proof.
  intros cm s e s' I T Hh H. destruct e as [| | | |n r t rp| |n]; simpl in H; cbn [cm_of].
  - destruct (SetupModel.s_pc s); try discriminate. injection H as <-. unfold head. destruct (_ || _); [exact T|].
    destruct (tries p cons iv maxTries (s_src s) None) as [x [[v found]|e]]; [|exact T].
    match goal with |- context [ind_new ?a ?b] => destruct (ind_new a b) as [i|e] end; [|destruct found; exact T].
    destruct (S _ <? Np) in |- *; intros m Hm; cbn [s_list s_inds] in *;
      (assert (Hm' : In m (s_list s)) by (destruct found; exact Hm); destruct (T m Hm') as (j & E & Hj); exists j; split; auto;
       rewrite nth_error_app1; [destruct found; exact E|apply nth_error_Some; destruct found; cbn [s_abort set_src s_inds]; congruence]).
  - destruct (SetupModel.s_pc s); try discriminate. destruct (_ <? _); [|discriminate]. injection H as <-. exact T.
  - destruct (SetupModel.s_pc s); try discriminate. destruct (existsb _ _); [discriminate|]. injection H as <-. exact T.
  - destruct (SetupModel.s_pc s); try discriminate. destruct (s_trk s); [|discriminate]. injection H as <-. unfold finish. destruct (is_run _); exact T.
  - assert (In n (s_fly s) /\ s' = eval_done Np s n r t rp) as [Hn ->].
    { destruct (existsb (Nat.eqb n) (s_fly s)) eqn:X; [apply existsb_n in X|destruct (SetupModel.s_pc s); discriminate].
      split; auto. destruct (SetupModel.s_pc s); congruence. }
    clear H. unfold eval_done. destruct (nth_error (s_inds s) n) as [i|] eqn:Ei; [|exact T]. specialize (Hh i eq_refl).
    assert (Old : forall x, In x (s_list s) -> x <> n) by (intros x Hx ->; exact (i_dis _ _ _ _ _ _ _ I n Hx Hn)).
    assert (K : forall y m, In m (s_list s) -> exists j, nth_error (upd n y (s_inds s)) m = Some j /\ (istored j = g (ivalues j) \/ In m cm)).
    { intros y m Hm. destruct (T m Hm) as (j & E & Hj). exists j. split; auto. rewrite upd_other; auto. intros ->. exact (Old m Hm eq_refl). }
    assert (L : n < length (s_inds s)) by (apply nth_error_Some; congruence).
    destruct Hh as [-> | ->].
    + cbn. intros m Hm. apply K. exact Hm.
    + unfold evaluate. cbn [snd]. set (i' := mkIndiv (ivalues i) (g (ivalues i)) (Some t)).
      destruct (negb (ind_bool i')); [intros m Hm; apply K; exact Hm|].
      destruct rp; [| |intros m Hm; apply K; exact Hm]; cbn [s_list s_inds]; intros m; cbn [s_list s_inds].
      * destruct (_ && _); [|intros Hm; rewrite upd_upd; apply K; exact Hm].
        rewrite in_app_iff. rewrite upd_upd. intros [Hm|[<-|[]]]; [apply K; exact Hm|]. exists i'. rewrite upd_same by auto. auto.
      * replace (isinf (ind_SSE (ind_blacklist i'))) with true by reflexivity. cbn [negb andb].
        intros Hm. rewrite upd_upd. apply K. exact Hm.
  - assert (s' = s_abort s) as -> by (destruct (SetupModel.s_pc s); congruence). exact T.
  - destruct (nth_error (s_inds s) n) as [i|] eqn:Ei; [|destruct (SetupModel.s_pc s); discriminate].
    destruct (existsb _ _); [destruct (SetupModel.s_pc s); discriminate|].
    assert (X : forall m, In m (s_list s) -> exists j, nth_error (upd n (ind_blacklist i) (s_inds s)) m = Some j /\ (istored j = g (ivalues j) \/ In m (n :: cm))).
    { intros m Hm. destruct (T m Hm) as (j & E & Hj). destruct (Nat.eq_dec n m) as [->|N].
      - exists (ind_blacklist i). rewrite upd_same by (apply nth_error_Some; congruence). split; auto. right. now left.
      - exists j. rewrite upd_other by auto. split; auto. destruct Hj; auto. right. now right. }
    destruct (SetupModel.s_pc s); injection H as <-; exact X.
Qed.
Lemma told_exec : forall es cm s s', okpm p -> 2 <= Np -> 1 <= maxPar -> 1 <= maxTries -> (forall x, unit_rows p Np (iv x)) ->
  inv p cons Np maxPar false cm s -> told cm s -> honest p cons Np maxPar maxTries iv g s es ->
  sexec p cons Np maxPar maxTries false iv s es = Some s' -> told (complained es cm) s'.
Proof.
  induction es as [|e es IH]; intros cm s s' Hp HN Hm Ht Hi I T Hh H; simpl in H; [injection H as <-; exact T|].
  destruct (sstep p cons Np maxPar maxTries false iv s e) as [s1|] eqn:E; [|discriminate].
  destruct Hh as [H1 H2]. simpl. apply (IH _ s1); auto.
  - now apply (inv_step p cons Np maxPar maxTries false iv Hp HN Hm Ht Hi cm s).
  - now apply (told_step cm s).
Qed.
End Setup.

Section Run.
Variables (p : pm) (cons : list constr) (CR : f64) (F : nat -> f64) (j : nat -> nat) (u : nat -> nat -> f64).
Variables (func : nat -> option (list f64) -> evalres) (t : nat -> f64) (PS : nat -> evpop).
Variables (histcrash : nat -> bool) (xSSE : bool) (npsin : f64 -> f64) (up0 up1 : f64) (o : opts).
Variable l : list indiv.
Variables (fm : fman) (sc : score).
Notation n := (length l).
Notation evo := (ev_obj func t PS n).
Notation start := (cstart o l fm sc).
Notation cstep := (cstep p cons CR F j u func t PS histcrash xSSE npsin up0 up1 o n).
Notation cexec := (cexec p cons CR F j u func t PS histcrash xSSE npsin up0 up1 o n).
Notation members x := (pop (lch (fst x))).
Notation chals x := (cs (lch (fst x))).

Lemma objects_nth : forall a, In a (objects l) <-> exists i, nth_error l (oid a) = Some i /\ a = mkObj (oid a) i.
Proof.
  assert (C : forall k m (l : list indiv), nth_error (combine (seq m (length l)) l) k = match nth_error l k with Some i => Some (m + k, i) | None => None end).
  { induction k as [|k IH]; intros m [|a l0]; simpl; auto; [now rewrite Nat.add_0_r|]. rewrite (IH (S m) l0). destruct (nth_error l0 k); auto. do 2 f_equal. lia. }
  intros a. unfold objects. rewrite in_map_iff. split.
  - intros ([k i] & <- & H). apply In_nth_error in H. destruct H as [k' H]. rewrite C in H.
    destruct (nth_error l k') as [i'|] eqn:E; [|discriminate]. injection H as <- <-. simpl. exists i'. auto.
  - intros (i & E & ->). exists (oid a, i). split; auto. apply (nth_error_In _ (oid a)). rewrite C. simpl in E. now rewrite E.
Qed.
(** *** C111: a member comes from setup or from a challenge that it has won *)
Theorem C111_origin : forall es x a, cexec start es = Some x -> In a (members x) ->
  (exists i, nth_error l (oid a) = Some i /\ oind a = i) \/
  exists es1 es2 x1 c q it ch, es = es1 ++ CL (LC (EEvalDone c)) :: es2 /\ cexec start es1 = Some x1 /\
    nth_error (chals x1) c = Some (mkChal q (PEval it ch)) /\ evo c it ch = Some a /\ better_now (snd x1) a it = true.
Proof.
  induction es as [|e es IH] using rev_ind; intros x a H Ha.
  - simpl in H. injection H as <-. left. unfold cstart in Ha. cbn [fst] in Ha. rewrite lch_start in Ha. cbn [init pop] in Ha.
    apply objects_nth in Ha. destruct Ha as (i & E & ->). simpl. eauto.
  - rewrite cexec_app in H. destruct (cexec start es) as [x1|] eqn:E1; [|discriminate]. cbn [CompModel.cexec] in H.
    destruct (cstep x1 e) as [x2|] eqn:E2; [|discriminate]. injection H as <-.
    assert (Old : In a (members x1) -> (exists i, nth_error l (oid a) = Some i /\ oind a = i) \/
      exists es1 es2 x1 c q it ch, es ++ [e] = es1 ++ CL (LC (EEvalDone c)) :: es2 /\ cexec start es1 = Some x1 /\
        nth_error (chals x1) c = Some (mkChal q (PEval it ch)) /\ evo c it ch = Some a /\ better_now (snd x1) a it = true).
    { intros Hin. destruct (IH x1 a eq_refl Hin) as [A|(es1 & es2 & y & c & q & it & ch & -> & A)]; auto.
      right. exists es1, (es2 ++ [e]), y, c, q, it, ch. rewrite <- app_assoc. auto. }
    destruct (cstep_pop _ _ _ _ _ _ _ _ _ _ _ _ _ _ _ _ _ _ _ E2) as [E|(c & q & it & ch & r & -> & Hc & Hr & Hb & E)].
    + rewrite E in Ha. auto.
    + rewrite E in Ha. apply In_nth_error in Ha. destruct Ha as [k Ha]. destruct (Nat.eq_dec (kt q) k) as [<-|N].
      * assert (L : kt q < length (members x1)).
        { apply nth_error_Some. assert (V := gi_val _ (cGI _ _ _ _ _ _ _ _ _ _ _ _ _ _ _ _ _ _ _ _ E1) c _ it Hc eq_refl). simpl in V. congruence. }
        rewrite upd_same in Ha by exact L. injection Ha as <-. right. exists es, [], x1, c, q, it, ch. auto.
      * rewrite upd_other in Ha by auto. apply Old. eapply nth_error_In; eauto.
Qed.
(** challengers that are evaluated pass the constraints *)
Lemma eval_passes : forall es x c q it ch, cexec start es = Some x -> nth_error (chals x) c = Some (mkChal q (PEval it ch)) ->
  passesConstraints (pm_names p) cons (ivalues (oind ch)) = Ok true.
Proof.
  intros es x c q it ch H Hc. destruct (C110_simulates _ _ _ _ _ _ _ _ _ _ _ _ _ _ _ _ _ _ _ _ H) as [V HV].
  destruct (run_inv _ _ _ _ _ _ _ _ _ _ _ _ _ _ HV) as [[ges Hg] _ _]. apply gexec_exec in Hg.
  assert (X : Forall (okE (fun i => passesConstraints (pm_names p) cons (ivalues (oind i)) = Ok true)) (chals x)).
  { eapply okE_exec; [| | exact Hg].
    - intros c' a b d e ch'. unfold mk_obj, mk_indiv. destruct (passesConstraints _ _ _) as [[|]|] eqn:P; try discriminate.
      intros [= <-]. exact P.
    - constructor. }
  exact (Forall_nth_error _ _ _ _ X Hc).
Qed.
(** what an honest function leaves in a challenger *)
Lemma ev_honest : forall g c it ch r, honest_func g func -> evo c it ch = Some r ->
  ivalues (oind r) = ivalues (oind ch) /\ (istored (oind r) = g (ivalues (oind r)) \/ istored (oind r) = None).
Proof.
  intros g c it ch r Hh. unfold ev_obj. destruct (ev_indiv _ _ _ _ _ _) as [i|] eqn:E; [|discriminate]. intros [= <-]. cbn [oind].
  split; [exact (ev_values _ _ _ _ _ _ _ E)|].
  unfold ev_indiv, evaluate in E. destruct (Hh c) as [H1 H2]. unfold eval_arg in E.
  assert (Neg : ind_bool (mkIndiv (ivalues (oind ch)) (Some (fofZ (-1))) (idt (oind ch))) = false) by reflexivity.
  destruct (ep_running (PS c)) as [[|]|].
  - destruct (H1 (ivalues (oind ch))) as [X|X]; rewrite X in E; cbn [snd] in E; [rewrite Neg in E; discriminate|].
    destruct (ind_bool _); [|discriminate]. injection E as <-. auto.
  - destruct H2 as [X|X]; rewrite X in E; cbn [snd] in E; [rewrite Neg in E; discriminate|].
    destruct (ind_bool _); [|discriminate]. injection E as <-. auto.
  - destruct (H1 (ivalues (oind ch))) as [X|X]; rewrite X in E; cbn [snd] in E; [rewrite Neg in E; discriminate|].
    destruct (ind_bool _); [|discriminate]. injection E as <-. auto.
Qed.
Lemma no_SSE_loses : forall a b, istored a = None -> ind_lt a b = false.
Proof.
  intros a b H. destruct (ind_lt a b) eqn:E; auto. apply lt_reals in E. destruct E as (_ & _ & E).
  unfold ind_SSE at 1 in E. rewrite H in E. change (key finf) with big in E. assert (K := key_bound (ind_SSE b)). lra.
Qed.

(** *** C111: members are what setup and the evaluation function say *)
Theorem C111_members : forall Np maxPar maxTries iv g run ses s,
  okcfg p Np maxPar maxTries iv -> reached p cons Np maxPar maxTries false iv run (ses ++ [SAll]) s ->
  SetupModel.s_pc s = SetupModel.PFired (Some true) ->
  honest p cons Np maxPar maxTries iv g (setup_start run) (ses ++ [SAll]) -> delivered s l ->
  honest_func g func -> (forall c, isfin (F c) = true) ->
  forall es x a, cexec start es = Some x -> In a (members x) ->
  inbounds p (ivalues (oind a)) /\
  (exists v, (ivalues (oind a) = v \/ ivalues (oind a) = pm_limit p v) /\ Forall (fun f : constr => f (mk_params (pm_names p) v) = Ok true) cons) /\
  (istored (oind a) = g (ivalues (oind a)) \/ exists m, nth_error (s_list s) (oid a) = Some m /\ In (SComplain m) ses).
Proof.
  intros Np maxPar maxTries iv g run ses s OK R Ep Hs D Hf FF es x a H Ha.
  destruct (C28_setup_delivers p cons Np maxPar maxTries false iv run ses s OK R Ep) as (_ & _ & _ & S4).
  assert (OK' := OK). destruct OK' as (Hp & HN & Hm & Ht & Hi).
  assert (T : told g (complained (ses ++ [SAll]) []) s).
  { apply (told_exec p cons Np maxPar maxTries iv g (ses ++ [SAll]) [] (setup_start run) s Hp HN Hm Ht Hi); auto; [|intros m Hx; exfalso; revert Hx; unfold setup_start; destruct (is_run run); intros []].
    apply (inv_start p cons Np maxPar maxTries false); auto. }
  assert (Dn : forall k i, nth_error l k = Some i -> exists m, nth_error (s_list s) k = Some m /\ nth_error (s_inds s) m = Some i).
  { clear - D. unfold delivered in D. induction D as [|m i l1 l2 E D IH]; intros [|k] i' Hk; try discriminate.
    - injection Hk as <-. exists m. auto.
    - exact (IH k i' Hk). }
  assert (B0 : forall i, In i l -> inbounds p (ivalues i)).
  { intros i Hin. apply In_nth_error in Hin. destruct Hin as [k Hk]. destruct (Dn k i Hk) as (m & M1 & M2).
    destruct (S4 m (nth_error_In _ _ M1)) as (i' & E & Hb & _). congruence. }
  split; [exact (proj1 (C110_in_bounds p cons CR F j u func t PS histcrash xSSE npsin up0 up1 o l fm sc Hp FF B0 es x a H Ha))|].
  destruct (C111_origin es x a H Ha) as [(i & E & <-)|(es1 & es2 & x1 & c & q & it & ch & _ & H1 & Hc & Hr & Hb)].
  - destruct (Dn _ _ E) as (m & M1 & M2). assert (Mi := nth_error_In _ _ M1).
    destruct (S4 m Mi) as (i' & Ei & _ & (v & V1 & V2 & V3) & _). rewrite M2 in Ei. injection Ei as <-. split.
    + exists v. auto.
    + destruct (T m Mi) as (i' & Ei & [A|A]); rewrite M2 in Ei; injection Ei as <-; auto. right. exists m. split; auto.
      apply complained_In in A. destruct A as [[]|A]. apply in_app_iff in A. destruct A as [A|[A|[]]]; [auto|discriminate].
  - destruct (ev_honest g c it ch a Hf Hr) as [E1 E2]. split.
    + exists (ivalues (oind a)). split; auto. apply passes_iff. rewrite E1. exact (eval_passes _ _ _ _ _ _ H1 Hc).
    + destruct E2 as [E2|E2]; auto. exfalso. unfold better_now in Hb.
      rewrite (look_out _ a (fresh _ _ _ _ _ _ _ _ _ _ _ _ _ _ _ _ _ _ _ _ _ _ _ _ _ H1 Hc Hr)) in Hb. rewrite no_SSE_loses in Hb; [discriminate|exact E2].
Qed.

(** *** C111: one member is at least as good as everything setup has delivered and
    everything evaluated since *)
Lemma best_exists : forall L : list obj, L <> [] -> (forall a, In a L -> isnan (ind_SSE (oind a)) = false) ->
  exists z, In z L /\ forall a, In a L -> fleb (ind_SSE (oind z)) (ind_SSE (oind a)) = true.
Proof.
  induction L as [|a L IH]; intros H N; [congruence|]. destruct L as [|b L].
  - exists a. split; [now left|]. intros b [<-|[]]. apply fleb_refl. apply N. now left.
  - destruct IH as (z & Z1 & Z2); [discriminate|intros; apply N; now right|].
    destruct (fleb_total (ind_SSE (oind z)) (ind_SSE (oind a))) as [T|T]; [apply N; now right|apply N; now left| |].
    + exists z. split; [now right|]. intros c [<-|Hc]; auto.
    + exists a. split; [now left|]. intros c [<-|Hc]; [apply fleb_refl; apply N; now left|].
      eapply fleb_trans; [apply fltb_fleb; exact T|auto].
Qed.
Theorem C111_best : l <> [] -> (forall i, In i l -> isnan (ind_SSE i) = false) ->
  forall es x, cexec start es = Some x -> (forall k, ~ In (CBlack k) es) ->
  exists z, In z (members x) /\ look (snd x) z = oind z /\
    (forall i, In i l -> fleb (ind_SSE (oind z)) (ind_SSE i) = true) /\
    (forall es1 es2 x1 c q it ch r, es = es1 ++ CL (LC (EEvalDone c)) :: es2 -> cexec start es1 = Some x1 ->
       nth_error (chals x1) c = Some (mkChal q (PEval it ch)) -> ChalModel.run (lch (fst x1)) = true ->
       evo c it ch = Some r -> isnan (ind_SSE (oind r)) = false -> fleb (ind_SSE (oind z)) (ind_SSE (oind r)) = true).
Proof.
  intros L0 N0 es x H NB.
  assert (S0 : snd x = []).
  { assert (G : forall es x y, (forall k, ~ In (CBlack k) es) -> cexec x es = Some y -> snd y = snd x).
    { clear. induction es as [|e es IH]; intros x y N H; cbn [CompModel.cexec] in H; [now injection H as <-|].
      destruct (cstep x e) as [x1|] eqn:E; [|discriminate]. rewrite (IH x1 y); auto; [|intros k C; apply (N k); now right].
      destruct e as [e|k]; [|exfalso; apply (N k); now left]. unfold CompModel.cstep in E.
      destruct (lstep _ _ _ _ _ _ _ _ _ _ _); [|discriminate]. now injection E as <-. }
    rewrite (G es start x NB H). reflexivity. }
  assert (First : forall i, In i l -> exists z, In z (members x) /\ fleb (ind_SSE (oind z)) (ind_SSE i) = true).
  { intros i Hin. destruct (C110_first _ _ _ _ _ _ _ _ _ _ _ _ _ _ _ _ _ _ es x i H Hin (N0 i Hin)) as (_ & _ & _ & z & _ & _ & _ & A & [B|B]); eauto.
    rewrite S0 in B. destruct B. }
  assert (NN := noNaN_exec p cons CR F j u func t PS histcrash xSSE npsin up0 up1 o l fm sc [] es start x eq_refl H (first_noNaN o l fm sc N0)).
  destruct (best_exists (members x)) as (z & Z1 & Z2); auto.
  { destruct l as [|i l']; [congruence|]. destruct (First i) as (z & Hz & _); [now left|]. intros C. rewrite C in Hz. destruct Hz. }
  exists z. split; auto. split; [rewrite S0; reflexivity|]. split.
  - intros i Hin. destruct (First i Hin) as (y & Y1 & Y2). eapply fleb_trans; [exact (Z2 y Y1)|exact Y2].
  - intros es1 es2 x1 c q it ch r -> H1 Hc Hrun Hr Nr. rewrite cexec_app, H1 in H.
    destruct (C110_best_of_all _ _ _ _ _ _ _ _ _ _ _ _ _ _ _ _ _ _ N0 es1 es2 x1 x c q it ch r H1 Hc Hrun Hr Nr H) as (y & Y1 & _ & Y2).
    + intros k C. apply (NB k). apply in_app_iff in C. apply in_app_iff. destruct C; auto. right. now right.
    + eapply fleb_trans; [exact (Z2 y Y1)|exact Y2].
Qed.
(** the two together, in terms of the function alone: when it never returns NaN
    and nobody complains, the best member's values are such that the function's
    SSE for them is at most that for any values tried in the run or delivered by
    setup *)
Definition sse (x : option f64) : f64 := ind_SSE (mkIndiv [] x None).
Lemma sse_of : forall i, ind_SSE i = sse (istored i). Proof. reflexivity. Qed.
Theorem C111_optimum : forall Np maxPar maxTries iv g run ses s,
  okcfg p Np maxPar maxTries iv -> reached p cons Np maxPar maxTries false iv run (ses ++ [SAll]) s ->
  SetupModel.s_pc s = SetupModel.PFired (Some true) ->
  honest p cons Np maxPar maxTries iv g (setup_start run) (ses ++ [SAll]) -> delivered s l ->
  honest_func g func -> (forall c, isfin (F c) = true) ->
  (forall v x, g v = Some x -> isnan x = false) -> (forall m, ~ In (SComplain m) ses) ->
  forall es x, cexec start es = Some x -> (forall k, ~ In (CBlack k) es) ->
  exists z, In z (members x) /\ inbounds p (ivalues (oind z)) /\ ind_SSE (look (snd x) z) = sse (g (ivalues (oind z))) /\
    (forall i, In i l -> fleb (sse (g (ivalues (oind z)))) (sse (g (ivalues i))) = true) /\
    (forall es1 es2 x1 c q it ch, es = es1 ++ CL (LC (EEvalDone c)) :: es2 -> cexec start es1 = Some x1 ->
       nth_error (chals x1) c = Some (mkChal q (PEval it ch)) -> ChalModel.run (lch (fst x1)) = true -> ep_running (PS c) <> Some false ->
       evo c it ch <> None -> fleb (sse (g (ivalues (oind z)))) (sse (g (ivalues (oind ch)))) = true).
Proof.
  intros Np maxPar maxTries iv g run ses s OK R Ep Hs D Hf FF Ng NC es x H NB.
  assert (Mem := C111_members Np maxPar maxTries iv g run ses s OK R Ep Hs D Hf FF).
  assert (Sn : forall v, isnan (sse (g v)) = false).
  { intros v. unfold sse, ind_SSE. cbn [istored]. destruct (g v) as [y|] eqn:E; [|reflexivity].
    destruct (fltb y fzero); [reflexivity|exact (Ng v y E)]. }
  assert (L1 : forall i, In i l -> istored i = g (ivalues i)).
  { intros i Hin. apply In_nth_error in Hin. destruct Hin as [k Hk].
    assert (Hm : In (mkObj k i) (members start)).
    { unfold cstart. cbn [fst]. rewrite lch_start. cbn [init pop]. apply objects_nth. simpl. eauto. }
    destruct (Mem [] start (mkObj k i) eq_refl Hm) as (_ & _ & [A|(m & _ & A)]); [exact A|destruct (NC m A)]. }
  assert (L0 : l <> []).
  { destruct (C28_setup_delivers p cons Np maxPar maxTries false iv run ses s OK R Ep) as (_ & Le & _).
    destruct OK as (_ & HN & _). intros ->. unfold delivered in D. inversion D as [D0|]. rewrite <- D0 in Le. simpl in Le. lia. }
  destruct (C111_best L0) with (es := es) (x := x) as (z & Z1 & Z2 & Z3 & Z4); auto.
  { intros i Hin. rewrite sse_of, (L1 i Hin). apply Sn. }
  destruct (Mem es x z H Z1) as (Hb & _ & [A|(m & _ & A)]); [|destruct (NC m A)].
  exists z. split; auto. split; auto. rewrite Z2, sse_of, A. split; [reflexivity|]. split.
  - intros i Hin. specialize (Z3 i Hin). now rewrite !sse_of, A, (L1 i Hin) in Z3.
  - intros es1 es2 x1 c q it ch Ee H1 Hc Hrun Hps Hr. destruct (evo c it ch) as [r|] eqn:Er; [|congruence].
    assert (X : istored (oind r) = g (ivalues (oind ch))).
    { unfold ev_obj in Er. destruct (ev_indiv _ _ _ _ _ _) as [i|] eqn:E; [|discriminate]. injection Er as <-. cbn [oind].
      unfold ev_indiv, evaluate, eval_arg in E. destruct (Hf c) as [H2 _].
      assert (Neg : ind_bool (mkIndiv (ivalues (oind ch)) (Some (fofZ (-1))) (idt (oind ch))) = false) by reflexivity.
      destruct (ep_running (PS c)) as [[|]|]; [|congruence|];
      (destruct (H2 (ivalues (oind ch))) as [X|X]; rewrite X in E; cbn [snd] in E; [rewrite Neg in E; discriminate|];
       destruct (ind_bool _); [|discriminate]; now injection E as <-). }
    assert (Y := Z4 es1 es2 x1 c q it ch r Ee H1 Hc Hrun Er). rewrite !sse_of, A, X in Y. apply Y. apply Sn.
Qed.
End Run.
Print Assumptions C111_origin.
Print Assumptions C111_members.
Print Assumptions C111_best.
Print Assumptions C111_optimum.

(** ** Four members; the function returns 2 if alpha is below 0, else 7 *)
Definition elow (v : list f64) : bool := fltb (nth 0 v fzero) fzero.
Definition esse (b : bool) : option f64 := Some (fofZ (if b then 2 else 7)).
Definition eg : evalfn := fun v => esse (elow v).
Definition e_iv (k : nat) : list (list f64) := [[fone; flit 1 (-1)]; [flit 3 (-2); flit 1 (-1)]; [flit 1 (-1); fone]; [fzero; fzero]].
Lemma e_cfg : okcfg ex_pm 4 2 4 e_iv.
Proof.
  split; [apply ex_pm_ok|]. repeat (split; [lia|]). intros k. split; [reflexivity|].
  unfold e_iv. intros v [<-|[<-|[<-|[<-|[]]]]]; (split; [reflexivity|]); repeat constructor; reflexivity.
Qed.
(** evaluation [n] ends with the result for [b] *)
Definition edone (d : sev + nat * bool) : sev := match d with inl e => e | inr (n, b) => SDone n (EvSSE (esse b)) fone RpFine end.
Fixpoint echeck (s : sst) (ds : list (sev + nat * bool)) : bool :=
  match ds with
  | [] => true
  | d :: ds =>
    match d with
    | inl (SDone _ _ _ _) => false
    | inl _ => true
    | inr (n, b) => match nth_error (s_inds s) n with Some i => eqb (elow (ivalues i)) b | None => true end
    end && match sstep ex_pm [] 4 2 4 false e_iv s (edone d) with Some s' => echeck s' ds | None => true end
  end.
Lemma echeck_honest : forall ds s, echeck s ds = true -> honest ex_pm [] 4 2 4 e_iv eg s (map edone ds).
Proof.
  induction ds as [|d ds IH]; intros s H; [exact Logic.I|]. cbn [echeck] in H. apply andb_true_iff in H. destruct H as [H1 H2].
  cbn [map honest]. split.
  - destruct d as [e|[n b]].
    + destruct e; try exact Logic.I. discriminate.
    + cbn [edone]. intros i Ei. rewrite Ei in H1. right. apply eqb_prop in H1. unfold eg. now rewrite H1.
  - intros s' E. rewrite E in H2. now apply IH.
Qed.
Definition e_ds : list (sev + nat * bool) :=
  [inl SHead; inl SFewer; inl SHead; inr (0, false); inl SFewer; inl SHead; inr (1, false); inl SFewer; inl SHead; inr (3, false); inr (2, false); inl SWaited; inl SHead].
Definition e_final := sexec ex_pm [] 4 2 4 false e_iv (setup_start None) (map edone e_ds ++ [SAll]).
Definition e_list (s : sst) : list indiv := map (fun n => nth n (s_inds s) (mkIndiv [] None None)) (s_list s).
Definition e_func (c : nat) (v : option (list f64)) : evalres := match v with Some v => EvSSE (eg v) | None => EvSSE None end.
Definition e_run (l : list indiv) := cexec ex_pm [] (flit 1 (-1)) (fun _ => flit 1 (-1)) (fun _ => 0) (fun _ _ => flit 1 (-2))
  e_func (fun _ => fone) (fun _ => mkEvpop (Some true) 5) (fun _ => false) true (fun _ => flit (-1) 0) c_up89 c_up87 copts (length l) (cstart copts l yfm ysc).
Definition e_es : list cevent := [CL LGo] ++ csteps (mkQuad 0 3 1 2) 0 ++ csteps (mkQuad 1 2 3 0) 1 ++ csteps (mkQuad 2 1 0 3) 2 ++ csteps (mkQuad 3 1 2 0) 3 ++ cend.
Example C111_nonvacuous : exists s x,
  okcfg ex_pm 4 2 4 e_iv /\ reached ex_pm [] 4 2 4 false e_iv None (map edone e_ds ++ [SAll]) s /\ SetupModel.s_pc s = SetupModel.PFired (Some true) /\
  honest ex_pm [] 4 2 4 e_iv eg (setup_start None) (map edone e_ds ++ [SAll]) /\ delivered s (e_list s) /\ honest_func eg e_func /\
  (forall v y, eg v = Some y -> isnan y = false) /\ (forall m, ~ In (SComplain m) (map edone e_ds)) /\
  e_run (e_list s) e_es = Some x /\ (forall k, ~ In (CBlack k) e_es) /\
  lph (fst x) = LEnd RMaxIter /\ map oid (pop (lch (fst x))) = [4; 1; 2; 3].
Proof.
  assert (V : match e_final with
    | Some s => match SetupModel.s_pc s with SetupModel.PFired (Some true) => true | _ => false end && forallb (fun n => n <? length (s_inds s)) (s_list s) &&
        match e_run (e_list s) e_es with
        | Some x => match lph (fst x) with LEnd RMaxIter => true | _ => false end && if list_eq_dec Nat.eq_dec (map oid (pop (lch (fst x)))) [4; 1; 2; 3] then true else false
        | None => false
        end
    | None => false end = true) by (vm_compute; reflexivity).
  assert (Hh : echeck (setup_start None) (e_ds ++ [inl SAll]) = true) by (vm_compute; reflexivity).
  unfold e_final in V. destruct (sexec ex_pm [] 4 2 4 false e_iv (setup_start None) (map edone e_ds ++ [SAll])) as [s|] eqn:Es; [|discriminate V].
  destruct (e_run (e_list s) e_es) as [x|] eqn:Ex; [|rewrite andb_false_r in V; discriminate V].
  rewrite !andb_true_iff in V. destruct V as ((V1 & V2) & V3 & V4). exists s, x.
  split; [exact e_cfg|]. split; [exact Es|]. split; [destruct (SetupModel.s_pc s) as [| | | |[[|]|]|]; try discriminate V1; reflexivity|].
  split; [apply echeck_honest in Hh; rewrite map_app in Hh; exact Hh|].
  split.
  { unfold delivered, e_list. clear - V2. induction (s_list s) as [|m l IH]; simpl in *; constructor.
    - apply andb_true_iff in V2. apply nth_error_nth'. apply Nat.ltb_lt. tauto.
    - apply IH. apply andb_true_iff in V2. tauto. }
  split; [intros c; split; auto; intros v; right; reflexivity|].
  split; [intros v y; unfold eg, esse; intros [= <-]; destruct (elow v); reflexivity|].
  split; [intros m C; unfold e_ds in C; cbn [map edone] in C; repeat (destruct C as [C|C]; [discriminate C|]); exact C|].
  split; [exact Ex|].
  split; [intros k C; unfold e_es in C; unfold csteps, cend, ysteps in C; cbn [map app] in C; repeat (destruct C as [C|C]; [discriminate C|]); exact C|].
  split; [destruct (lph (fst x)) as [| | | |[]]; try discriminate V3; reflexivity|].
  destruct (list_eq_dec _ _ _) as [E|]; [exact E|discriminate V4].
Qed.

(** *** refuted: the best individual evaluated in setup is delivered: evaluations
    that end when the population has its Np members come to nothing, although
    they have been reported *)
Theorem C111_setup_best_refuted : ~ forall es s n i x, reached ex_pm [] 3 2 4 false ex_iv None (es ++ [SAll]) s ->
  SetupModel.s_pc s = SetupModel.PFired (Some true) -> (forall m, ~ In (SComplain m) es) ->
  In (SDone n (EvSSE (Some x)) fone RpFine) es -> nth_error (s_inds s) n = Some i -> istored i = Some x ->
  exists m k, In m (s_list s) /\ nth_error (s_inds s) m = Some k /\ fleb (ind_SSE k) (ind_SSE i) = true.
Proof.
  intros H.
  pose (es := [SHead; SFewer; SHead; ev_ok 0 7; SFewer; SHead; ev_ok 2 5; SWaited; SHead; ev_ok 1 6; ev_ok 3 1; SWaited; SHead]).
  assert (V : match sexec ex_pm [] 3 2 4 false ex_iv (setup_start None) (es ++ [SAll]) with
    | Some s => match SetupModel.s_pc s with SetupModel.PFired (Some true) => true | _ => false end &&
        match nth_error (s_inds s) 3 with
        | Some i => match istored i with Some y => feqb y fone && negb (fltb y fzero) && forallb (fun m => match nth_error (s_inds s) m with Some k => negb (fleb (ind_SSE k) fone) | None => true end) (s_list s) | None => false end
        | None => false
        end
    | None => false end = true) by (vm_compute; reflexivity).
  destruct (sexec ex_pm [] 3 2 4 false ex_iv (setup_start None) (es ++ [SAll])) as [s|] eqn:Es; [|discriminate V].
  destruct (nth_error (s_inds s) 3) as [i|] eqn:Ei; [|rewrite andb_false_r in V; discriminate V].
  assert (Ev : istored i = Some (fofZ 1)).
  { (* the fourth individual's SSE is the one of its evaluation *)
    apply andb_true_iff in V. destruct V as [_ V]. destruct (istored i) as [y|] eqn:Ey; [|discriminate V].
    rewrite !andb_true_iff in V. destruct V as ((V & _) & _). f_equal. apply feqb_spec in V. destruct V as (V1 & V2 & V3).
    apply key_inj; auto. rewrite V3, key_fone. lra. }
  rewrite Ev in V. rewrite !andb_true_iff in V. destruct V as (V1 & (_ & V2) & V3).
  destruct (H es s 3 i (fofZ 1) Es) as (m & k & M1 & M2 & M3); auto.
  - destruct (SetupModel.s_pc s) as [| | | |[[|]|]|]; try discriminate V1; reflexivity.
  - intros m C. unfold es in C. unfold ev_ok in C. repeat (destruct C as [C|C]; [discriminate C|]). exact C.
  - unfold es, ev_ok. do 10 right. left. reflexivity.
  - rewrite forallb_forall in V3. specialize (V3 m M1). rewrite M2 in V3. apply negb_true_iff in V3.
    rewrite (sse_of i), Ev in M3. assert (X : key (sse (Some (fofZ 1))) = key fone).
    { unfold sse, ind_SSE. cbn [istored]. replace (fltb (fofZ 1) fzero) with false by (vm_compute; reflexivity). reflexivity. }
    apply fleb_spec in M3. destruct M3 as (N1 & N2 & N3). rewrite X in N3.
    apply not_true_iff_false in V3. apply V3. apply fleb_spec. auto.
Qed.
Print Assumptions C111_setup_best_refuted.
