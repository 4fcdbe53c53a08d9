(** * Property C118: constraints changed during a run *)
From Coq Require Import List Bool Arith ZArith Lia.
From Verif Require Import Flt FltMore Py IndivModel IndivProofs ParamModel ParamProofs FManModel RunModel ChalModel ChalProofs ChalSerial ChalLive ChalInst ChalProps LoopModel LoopProofs LoopProps ParamProps CompModel CompProps SetRunModel.
Import ListNotations.
Local Open Scope nat_scope.

(** ** what a challenge's [mk] is asked for once *)
Section Ask.
Context {I : Type}.
Variable ev : nat -> I -> I -> option I.
Variable better : I -> I -> bool.
Variable histcrash : nat -> bool.
Variable xSSE : bool.
Variable npsin : f64 -> f64.
Variables up0 up1 : f64.
Variable o : opts.
Notation mkt := (nat -> I -> I -> I -> I -> mkres I).
Notation step m := (step m ev better histcrash xSSE).
Notation lstep m := (lstep m ev better histcrash xSSE npsin up0 up1 o).
(** challenge [c] has made its challenger, or had it rejected *)
Definition past (s : st I) (c : nat) : Prop :=
  exists x, nth_error (cs s) c = Some x /\ match cpc x with PEval _ _ | PHist | PRelT | PDone | PFail => True | _ => False end.
Lemma past_no_ask : forall (m : mkt) s c, past s c -> step m s (EMutate c) = None.
Proof.
  intros m s c (x & Hx & D). simpl. rewrite Hx. destruct x as [q pp]. destruct pp; simpl in D; tauto || reflexivity.
Qed.
Lemma mk_step_ext : forall (f g : mkt) s e, (forall c, e = EMutate c -> past s c \/ forall a b d h, f c a b d h = g c a b d h) -> step f s e = step g s e.
Proof.
  intros f g s e A. destruct e; try reflexivity. destruct (A _ eq_refl) as [P|E].
  - now rewrite !past_no_ask.
  - simpl. destruct (nth_error (cs s) c) as [[q pp]|]; auto. destruct pp as [| |i1 i2 i3 i4 [|? ?]| | | | |]; auto. now rewrite E.
Qed.
Lemma mk_lstep_ext : forall (f g : mkt) s e, (forall c, e = LC (EMutate c) -> past (lch s) c \/ forall a b d h, f c a b d h = g c a b d h) -> lstep f s e = lstep g s e.
Proof.
  intros f g s e A. destruct e as [e| |q| | | | |]; try reflexivity.
  unfold LoopModel.lstep. rewrite (mk_step_ext f g (lch s) e); auto. intros c ->. now apply A.
Qed.
Lemma past_step : forall (m : mkt) s e s' c, step m s e = Some s' -> past s c -> past s' c.
Proof.
  intros m s e s' c H (x & Hx & D).
  assert (RL : forall k (s : st I), past s c -> past (release1 k s) c).
  { intros k s0 (y & Hy & Dy). unfold past. rewrite release1_cs, Hy.
    destruct (match tl (L s0 k) with [] => false | h :: _ => c =? h end).
    - eexists. split; [reflexivity|]. destruct y as [qq pp]; destruct pp; simpl in *; tauto.
    - exists y; auto. }
  assert (GO : forall c' q' p' p, nth_error (cs s) c' = Some (mkChal q' p') ->
     (match p' with PEval _ _ | PHist | PRelT | PDone | PFail => True | _ => False end -> match p with PEval _ _ | PHist | PRelT | PDone | PFail => True | _ => False end) ->
     past (goto s c' p) c).
  { intros c' q' p' p E N. unfold past. rewrite goto_cs. destruct (Nat.eqb_spec c c') as [->|]; eauto.
    rewrite Hx in E. injection E as ->. rewrite Hx. simpl in *. eexists. split; [reflexivity|]. simpl. destruct p'; tauto. }
  destruct e as [q|d|d|d|d|d|d| | |n]; simpl in H.
  - destruct (ChalModel.run s); [|discriminate]. simpl in H. destruct (okquad _ q); [|discriminate].
    assert (c < length (cs s)) by (apply nth_error_Some; congruence).
    exists x. split; auto. destruct (prun s); injection H as <-; simpl; rewrite nth_error_app1; auto.
  - destruct (nth_error (cs s) d) as [[q p]|] eqn:E; [|discriminate]. destruct p as [[|]| | | | | | |]; try discriminate.
    repeat (match goal with H : match ?x with _ => _ end = _ |- _ => destruct x end); injection H as <-; eapply GO; eauto; simpl; auto.
  - destruct (nth_error (cs s) d) as [[q p]|] eqn:E; [|discriminate]. destruct p as [|[|? ?]|? ? ? ? [|? ?]| | | | |]; try discriminate; injection H as <-;
    try apply RL; eapply GO; eauto; simpl; auto.
  - destruct (nth_error (cs s) d) as [[q p]|] eqn:E; [|discriminate]. destruct p as [| |? ? ? ? [|? ?]| | | | |]; try discriminate.
    destruct (m _ _ _ _ _); injection H as <-; eapply GO; eauto; simpl; auto.
  - destruct (nth_error (cs s) d) as [[q p]|] eqn:E; [|discriminate]. destruct p; try discriminate.
    assert (Y : forall z, match z with PHist | PRelT => True | _ => False end -> past (goto s d z) c) by (intros z Hz; eapply GO; eauto; simpl; destruct z; tauto).
    repeat (match goal with H : match ?x with _ => _ end = _ |- _ => destruct x end); injection H as <-; try (apply Y; exact Logic.I).
    all: apply Y; destruct xSSE; exact Logic.I.
  - destruct (nth_error (cs s) d) as [[q p]|] eqn:E; [|discriminate]. destruct p; try discriminate. injection H as <-.
    eapply GO; eauto; simpl. destruct (histcrash d); auto.
  - destruct (nth_error (cs s) d) as [[q p]|] eqn:E; [|discriminate]. destruct p; try discriminate. injection H as <-. apply RL.
    eapply GO; eauto; simpl; auto.
  - injection H as <-. exists x; auto.
  - injection H as <-. exists x; auto.
  - destruct (nth_error (abq s) n); [|discriminate]. injection H as <-. apply RL. exists x; auto.
Qed.
Lemma past_lstep : forall (m : mkt) s e s' c, lstep m s e = Some s' -> past (lch s) c -> past (lch s') c.
Proof.
  intros m s e s' c H Hl. destruct (lstep_cases _ _ _ _ _ _ _ _ _ s e s' H) as [(e' & H' & _)|[E _]].
  - eapply past_step; eauto.
  - destruct Hl as (x & Hx & D). exists x. split; auto. congruence.
Qed.
Lemma past_asked : forall (m : mkt) s c s', lstep m s (LC (EMutate c)) = Some s' -> past (lch s') c.
Proof.
  intros m s c s' H. unfold LoopModel.lstep in H. destruct (step m (lch s) (EMutate c)) as [s1|] eqn:E; [|discriminate]. injection H as <-. cbn [lch].
  simpl in E. destruct (nth_error (cs (lch s)) c) as [[q pp]|] eqn:Ec; [|discriminate]. destruct pp as [| |i1 i2 i3 i4 [|? ?]| | | | |]; try discriminate.
  destruct (m c i1 i2 i3 i4); injection E as <-; unfold past; rewrite goto_cs, Nat.eqb_refl, Ec; eexists; (split; [reflexivity|exact Logic.I]).
Qed.
Lemma other_mk : forall c (f g : mkt) es s, past (lch s) c -> (forall k, k <> c -> forall a b d h, f k a b d h = g k a b d h) ->
  lexec f ev better histcrash xSSE npsin up0 up1 o s es = lexec g ev better histcrash xSSE npsin up0 up1 o s es.
Proof.
  intros c f g. induction es as [|e es IH]; intros s P A; simpl; auto.
  rewrite (mk_lstep_ext f g s e).
  - destruct (lstep g s e) as [s1|] eqn:E; auto. apply IH; auto. eapply past_lstep; eauto.
  - intros k ->. destruct (Nat.eq_dec k c) as [->|N]; auto.
Qed.
End Ask.

Section Changing.
Variables (p : pm) (CR : f64) (F : nat -> f64) (j : nat -> nat) (u : nat -> nat -> f64).
Variables (func : nat -> f64 -> option (list f64) -> evalres) (t : nat -> f64) (PS : nat -> evpop).
Variables (histcrash : nat -> bool) (xSSE : bool) (npsin : f64 -> f64) (up0 up1 : f64) (o : opts).
Variable l : list indiv.
Variable cons0 : list constr.
Variables (fm : fman) (sc : score).
Notation n := (length l).
Notation ev := (ev_indiv func t PS).
Notation start := (xstart o l cons0 fm sc).
Notation xstep := (xstep p CR F j u ev ind_lt histcrash xSSE npsin up0 up1 o).
Notation xexec := (xexec p CR F j u ev ind_lt histcrash xSSE npsin up0 up1 o).
(** the run in which challenge [c] has constraints [W c] *)
Notation mkw W := (fun c => mk_indiv p (W c) CR F j u c).
Notation wexec W := (lexec (mkw W) ev ind_lt histcrash xSSE npsin up0 up1 o).
Notation members x := (pop (lch (fst x))).
Notation chals x := (cs (lch (fst x))).
(** the values pass the constraints (population.py:336-366) *)
Notation passes k i := (passesConstraints (pm_names p) k (ivalues i) = Ok true).

(** the events without the calls to setConstraints *)
Definition xplain (es : list xevent) : list levent := flat_map (fun e => match e with XL e => [e] | XSet _ => [] end) es.

Lemma xexec_app : forall es1 es2 x, xexec x (es1 ++ es2) = match xexec x es1 with Some x1 => xexec x1 es2 | None => None end.
Proof. induction es1 as [|e es1 IH]; simpl; intros; auto. destruct (xstep x e); auto. Qed.
Lemma past_xstep : forall x e x' c, xstep x e = Some x' -> past (lch (fst x)) c -> past (lch (fst x')) c.
Proof.
  intros x e x' c H P. destruct e as [e|a]; unfold SetRunModel.xstep in H.
  - destruct (lstep _ _ _ _ _ _ _ _ _ (fst x) e) as [s1|] eqn:E; [|discriminate]. injection H as <-. eapply past_lstep; eauto.
  - now injection H as <-.
Qed.
Lemma past_xexec : forall es x x' c, xexec x es = Some x' -> past (lch (fst x)) c -> past (lch (fst x')) c.
Proof.
  induction es as [|e es IH]; intros x x' c H P; cbn [SetRunModel.xexec] in H; [now injection H as <-|].
  destruct (xstep x e) as [x1|] eqn:E; [|discriminate]. eapply IH; eauto. eapply past_xstep; eauto.
Qed.
Lemma xsim : forall es x x', xexec x es = Some x' -> exists W,
  wexec W (fst x) (xplain es) = Some (fst x') /\
  forall es1 es2 c x1, es = es1 ++ XL (LC (EMutate c)) :: es2 -> xexec x es1 = Some x1 -> W c = snd x1.
Proof.
  induction es as [|e es IH]; intros x x' H; cbn [SetRunModel.xexec] in H.
  - injection H as <-. exists (fun _ => []). split; [reflexivity|]. intros [|? ?] ? ? ? C; discriminate C.
  - destruct (xstep x e) as [x1|] eqn:E; [|discriminate]. destruct (IH _ _ H) as (W & HW & HF).
    destruct e as [e|a].
    2:{ exists W. unfold SetRunModel.xstep in E. injection E as <-. split; [exact HW|].
        intros [|e1 es1] es2 c x2 C Hx; [discriminate C|]. injection C as <- C. cbn [SetRunModel.xexec SetRunModel.xstep] in Hx. eapply HF; eauto. }
    assert (E0 := E). unfold SetRunModel.xstep in E. destruct (lstep _ _ _ _ _ _ _ _ _ (fst x) e) as [s1|] eqn:Es; [|discriminate]. injection E as <-.
    cbn [xplain flat_map app]. change (flat_map _ es) with (xplain es). cbn [LoopModel.lexec fst] in *.
    assert (X : (exists c, e = LC (EMutate c)) \/ (forall c, e <> LC (EMutate c))).
    { destruct e as [e| | | | | | |]; try (right; intros c C; discriminate C). destruct e; try (right; intros c' C; discriminate C). left; eauto. }
    destruct X as [[c ->]|X].
    + assert (PC := past_asked _ _ _ _ _ _ _ _ _ _ _ _ Es).
      exists (fun k => if k =? c then snd x else W k). split.
      * rewrite (mk_lstep_ext ev ind_lt histcrash xSSE npsin up0 up1 o _ (mk_indiv p (snd x) CR F j u)).
        2:{ intros c' [= <-]. right. intros. now rewrite Nat.eqb_refl. }
        rewrite Es, <- HW. apply (other_mk _ _ _ _ _ _ _ _ c); [exact PC|]. intros k Hk a b d h. destruct (Nat.eqb_spec k c); congruence.
      * intros [|e1 es1] es2 c' x2 C Hx.
        -- injection C as -> _. injection Hx as <-. now rewrite Nat.eqb_refl.
        -- injection C as <- C. cbn [SetRunModel.xexec] in Hx. rewrite E0 in Hx.
           destruct (Nat.eqb_spec c' c) as [->|N]; [|eapply HF; eauto]. exfalso.
           assert (P2 := past_xexec _ _ _ _ Hx PC). rewrite C, xexec_app, Hx in H. cbn [SetRunModel.xexec] in H.
           unfold SetRunModel.xstep, LoopModel.lstep in H.
           assert (NA : step (mk_indiv p (snd x2) CR F j u) ev ind_lt histcrash xSSE (lch (fst x2)) (EMutate c) = None) by (eapply past_no_ask; eauto).
           rewrite NA in H. discriminate H.
    + exists W. split.
      * rewrite (mk_lstep_ext ev ind_lt histcrash xSSE npsin up0 up1 o _ (mk_indiv p (snd x) CR F j u)); [now rewrite Es|].
        intros c' C. now apply X in C.
      * intros [|e1 es1] es2 c' x2 C Hx.
        -- injection C as C _. now apply X in C.
        -- injection C as <- C. cbn [SetRunModel.xexec] in Hx. rewrite E0 in Hx. eapply HF; eauto.
Qed.

(** *** C118: changing the constraints changes which candidates are accepted,
    nothing else: the run is one of LoopModel.v in which each challenge has
    constraints of its own, those in force when it looked at them *)
Theorem C118_simulates : forall es x, xexec start es = Some x -> exists W,
  wexec W (linit o l fm sc) (xplain es) = Some (fst x) /\
  forall es1 es2 c x1, es = es1 ++ XL (LC (EMutate c)) :: es2 -> xexec start es1 = Some x1 -> W c = snd x1.
Proof. intros es x H. exact (xsim es start x H). Qed.
(** so generations are as ever, and the run ends whatever constraints are set *)
Theorem C118_targets : forall es x c q, xexec start es = Some x -> nth_error (lrequests (xplain es)) c = Some q ->
  kt q = c mod n /\ c < o_maxiter o * n.
Proof. intros es x c q H Hq. destruct (C118_simulates es x H) as (W & HW & _). eapply C80_targets_in_turn; eauto. Qed.
Theorem C118_ends : forall es x, xexec start es = Some x ->
  inner (xplain es) <= o_maxiter o * (n * (n + 10) + 3) + 2 + aborts (xplain es) * n /\
  (4 <= n -> (forall w, lph (fst x) <> LEnd w) -> exists e x', linternal e = true /\ xstep x (XL e) = Some x').
Proof.
  intros es x H. destruct (C118_simulates es x H) as (W & HW & HF). split; [eapply C84_bounded; eauto|].
  intros H4 NE. destruct (C84_goes_on _ _ _ _ _ _ _ _ _ _ _ _ H4 _ _ HW NE) as (e & s' & He & Hs).
  assert (X : exists s'', lstep (mk_indiv p (snd x) CR F j u) ev ind_lt histcrash xSSE npsin up0 up1 o (fst x) e = Some s'').
  { destruct e as [e| |q| | | | |]; try (exists s'; exact Hs). destruct e; try (exists s'; exact Hs).
    unfold LoopModel.lstep, step in *. destruct (nth_error (chals x) c) as [[q pp]|]; [|discriminate].
    destruct pp as [| |i1 i2 i3 i4 [|? ?]| | | | |]; try discriminate. destruct (mk_indiv p (snd x) CR F j u c i1 i2 i3 i4); eauto. }
  destruct X as [s'' Hs'']. exists e, (s'', snd x). split; auto. unfold SetRunModel.xstep. now rewrite Hs''.
Qed.

(** ** where members come from *)
Definition evals (x : lst indiv * list constr) (i : indiv) : Prop :=
  exists c q it ch, nth_error (chals x) c = Some (mkChal q (PEval it ch)) /\ ivalues ch = ivalues i.
Lemma origin_step : forall x e x' i, xstep x e = Some x' -> In i (members x') \/ evals x' i ->
  (In i (members x) \/ evals x i) \/ passes (snd x) i.
Proof.
  intros x e x' i H Hi. destruct e as [e|a]; unfold SetRunModel.xstep in H; [|injection H as <-; auto].
  destruct (lstep _ _ _ _ _ _ _ _ _ (fst x) e) as [s1|] eqn:E; [|discriminate]. injection H as <-. unfold evals in *. cbn [fst snd] in *.
  destruct (lstep_cases _ _ _ _ _ _ _ _ _ _ _ _ E) as [(e' & H' & He)|[E1 E2]]; [|rewrite E1, E2 in Hi; auto].
  destruct Hi as [Hi|(c & q & it & ch & Hc & Ev)].
  - destruct (step_pop _ _ _ _ _ _ _ _ H') as [_ [Ep|(c & q & it & ch & r & _ & E1 & _ & E2 & _ & E4)]]; [rewrite Ep in Hi; auto|].
    rewrite E4 in Hi. apply in_upd in Hi. destruct Hi as [->|Hi]; auto. left. right. exists c, q, it, ch. split; auto. symmetry. eapply ev_values; eauto.
  - destruct (eval_step _ _ _ _ _ _ _ _ c ch H' (ex_intro _ q (ex_intro _ it Hc))) as [(q' & it' & G)|(a1 & a2 & a3 & a4 & G)].
    + left. right. exists c, q', it', ch. auto.
    + right. unfold mk_indiv in G. destruct (passesConstraints _ _ _) as [[|]|] eqn:Ep; try discriminate G. injection G as <-. simpl in Ev. now rewrite <- Ev.
Qed.
Lemma origin : forall es x x' i, xexec x es = Some x' -> In i (members x') \/ evals x' i ->
  (In i (members x) \/ evals x i) \/ exists es1 es2 x1, es = es1 ++ es2 /\ xexec x es1 = Some x1 /\ passes (snd x1) i.
Proof.
  induction es as [|e es IH]; intros x x' i H Hi; cbn [SetRunModel.xexec] in H; [injection H as <-; auto|].
  destruct (xstep x e) as [x1|] eqn:E; [|discriminate]. destruct (IH _ _ _ H Hi) as [G|(es1 & es2 & x2 & -> & Hx & P)].
  - destruct (origin_step _ _ _ _ E G) as [G'|P]; auto. right. exists [], (e :: es), x. auto.
  - right. exists (e :: es1), es2, x2. split; auto. split; auto. cbn [SetRunModel.xexec]. now rewrite E.
Qed.
(** *** C118: who is in the population was there when the run began, or
    satisfied the constraints in force at some moment of the run *)
Theorem C118_made : forall es x i, xexec start es = Some x -> In i (members x) ->
  In i l \/ exists es1 es2 x1, es = es1 ++ es2 /\ xexec start es1 = Some x1 /\ passes (snd x1) i.
Proof.
  intros es x i H Hi. destruct (origin es start x i H (or_introl Hi)) as [[G|(c & q & it & ch & Hc & _)]|G]; auto.
  - left. cbn [xstart fst] in G. unfold linit, loop_head in G. destruct (_ <? _) in G; try destruct (r_run _) in G; exact G.
  - exfalso. cbn [xstart fst] in Hc. unfold linit, loop_head in Hc. destruct (_ <? _) in Hc; try destruct (r_run _) in Hc; simpl in Hc; destruct c; discriminate Hc.
Qed.
Lemma callable_map : forall args fs, all_callable args = Some fs -> args = map Some fs.
Proof.
  induction args as [|[f|] args IH]; simpl; intros fs H; try discriminate; [now injection H as <-|].
  destruct (all_callable args) as [k|]; [|discriminate]. injection H as <-. simpl. now rewrite <- (IH k eq_refl).
Qed.
Lemma same_cons : forall es x x', (forall fs, ~ In (XSet (map Some fs)) es) -> xexec x es = Some x' -> snd x' = snd x.
Proof.
  induction es as [|e es IH]; intros x x' N H; cbn [SetRunModel.xexec] in H; [now injection H as <-|].
  destruct (xstep x e) as [x1|] eqn:E; [|discriminate]. rewrite (IH _ _ (fun a C => N a (or_intror C)) H).
  destruct e as [e|a]; unfold SetRunModel.xstep in E.
  - destruct (lstep _ _ _ _ _ _ _ _ _ _ _); [|discriminate]. now injection E as <-.
  - injection E as <-. cbn [snd]. unfold setConstraints. destruct (all_callable a) as [k|] eqn:A; auto.
    exfalso. apply (N k). left. now rewrite (callable_map _ _ A).
Qed.
(** *** C118: the constraints in force are those of the last call with callables
    only, or those the run began with *)
Theorem C118_in_force : forall es x, xexec start es = Some x -> (forall fs, ~ In (XSet (map Some fs)) es) -> snd x = cons0.
Proof. intros es x H N. exact (same_cons es start x N H). Qed.
(** *** C118: from a call to setConstraints on, until the next, whoever is new
    satisfies what it has set: only members at the time of the call, and
    challengers then being evaluated, may not *)
Theorem C118_after : forall fs es2 x1 x2, (forall gs, ~ In (XSet (map Some gs)) es2) ->
  xexec x1 (XSet (map Some fs) :: es2) = Some x2 ->
  snd x2 = fs /\ forall i, In i (members x2) -> passes fs i \/ In i (members x1) \/ evals x1 i.
Proof.
  intros fs es2 x1 x2 N H. cbn [SetRunModel.xexec SetRunModel.xstep] in H.
  assert (A : all_callable (map Some fs) = Some fs) by (clear; induction fs as [|f fs IH]; simpl; [auto|now rewrite IH]).
  unfold setConstraints in H. rewrite A in H. cbn [fst] in H.
  split; [exact (same_cons _ _ _ N H)|]. intros i Hi.
  destruct (origin _ _ _ i H (or_introl Hi)) as [G|(e1 & e2 & y & -> & Hy & P)]; [right; exact G|].
  left. rewrite (same_cons e1 _ _ (fun a C => N a (in_or_app _ _ _ (or_introl C))) Hy) in P. exact P.
Qed.
(** ** slots and bounds *)
Lemma xGI : forall es x, xexec start es = Some x -> GI (lch (fst x)).
Proof.
  intros es x H. destruct (C118_simulates es x H) as (W & HW & _).
  destruct (run_inv _ _ _ _ _ _ _ _ _ _ _ _ _ _ HW) as [[g Hg] _ _]. eapply GI_gexec; [apply GI_init|exact Hg].
Qed.
Lemma xslot_step : forall es x e x' k a, xexec start es = Some x -> xstep x e = Some x' -> nth_error (members x) k = Some a ->
  nth_error (members x') k = Some a \/ exists b, nth_error (members x') k = Some b /\ ind_lt b a = true.
Proof.
  intros es x e x' k a H Hs Ha. destruct e as [e|args]; unfold SetRunModel.xstep in Hs; [|injection Hs as <-; auto].
  destruct (lstep _ _ _ _ _ _ _ _ _ (fst x) e) as [s1|] eqn:E; [|discriminate]. injection Hs as <-. cbn [fst].
  destruct (lstep_cases _ _ _ _ _ _ _ _ _ _ _ _ E) as [(e' & H' & _)|[_ ->]]; auto.
  destruct (step_pop _ _ _ _ _ _ _ _ H') as [_ [->|(c & q & it & ch & r & _ & Hc & _ & _ & Hb & ->)]]; auto.
  assert (V := gi_val _ (xGI es x H) c _ it Hc eq_refl). simpl in V.
  destruct (Nat.eq_dec k (kt q)) as [->|Nk].
  - right. exists r. rewrite upd_same by (apply nth_error_Some; congruence). split; auto. congruence.
  - left. now rewrite upd_other by congruence.
Qed.
(** *** C118: whatever is set, a slot's individual is only ever replaced by a better one *)
Theorem C118_never_worse : forall es1 es2 x1 x2 k a, xexec start es1 = Some x1 -> xexec x1 es2 = Some x2 ->
  nth_error (members x1) k = Some a ->
  exists b, nth_error (members x2) k = Some b /\ (a = b \/ ind_lt b a = true).
Proof.
  intros es1 es2. revert es1. induction es2 as [|e es2 IH]; intros es1 x1 x2 k a H1 H2 Ha; cbn [SetRunModel.xexec] in H2.
  - injection H2 as <-. exists a. auto.
  - destruct (xstep x1 e) as [x|] eqn:E; [|discriminate].
    assert (H : xexec start (es1 ++ [e]) = Some x) by (rewrite xexec_app, H1; cbn [SetRunModel.xexec]; now rewrite E).
    destruct (xslot_step es1 x1 e x k a H1 E Ha) as [Ha'|(b & Hb & Lb)]; [exact (IH _ _ _ _ _ H H2 Ha')|].
    destruct (IH _ _ _ _ _ H H2 Hb) as (z & Hz & C). exists z. split; auto. right.
    destruct C as [<-|C]; auto. exact (proj1 (proj2 (proj2 (lt_strict_order z b a))) C Lb).
Qed.
(** *** C118: whatever is set, members stay in bounds *)
Theorem C118_in_bounds : okpm p -> (forall c, isfin (F c) = true) -> (forall i, In i l -> inbounds p (ivalues i)) ->
  forall es x i, xexec start es = Some x -> In i (members x) -> inbounds p (ivalues i).
Proof.
  intros OK FF H0 es x i H Hi. destruct (C118_simulates es x H) as (W & HW & _).
  destruct (run_inv _ _ _ _ _ _ _ _ _ _ _ _ _ _ HW) as [[g Hg] _ _]. apply gexec_exec in Hg.
  assert (X : QI (fun i => inbounds p (ivalues i)) (lch (fst x))).
  { eapply QI_exec; [| |split|exact Hg].
    - intros c b1 b2 b3 b4 ch A1 A2 A3 A4. unfold mk_indiv. destruct (passesConstraints _ _ _) as [[|]|]; try discriminate.
      intros [= <-]. simpl. apply challenger_in; auto.
    - intros c b ch r Hch E. now rewrite (ev_values _ _ _ _ _ _ _ E).
    - cbn [init pop]. apply Forall_forall. exact H0.
    - constructor. }
  destruct X as [X _]. rewrite Forall_forall in X. auto.
Qed.
(** *** C118: a finished run that was not stopped is the sequence of its
    challenges, one after the other, each with its own constraints *)
Theorem C118_whole_run : forall es x w, xexec start es = Some x -> lph (fst x) = LEnd w -> w <> RShutdown -> prun (lch (fst x)) = true ->
  exists W, members x = seq_run (mkw W) ev ind_lt 0 (lrequests (xplain es)) l /\
  forall es1 es2 c x1, es = es1 ++ XL (LC (EMutate c)) :: es2 -> xexec start es1 = Some x1 -> W c = snd x1.
Proof.
  intros es x w H Hw Nw Pr. destruct (C118_simulates es x H) as (W & HW & HF). exists W. split; [|exact HF].
  exact (proj1 (C82_whole_run _ _ _ _ _ _ _ _ _ _ _ _ _ _ _ HW Hw Nw Pr)).
Qed.
(** a call refused leaves everything as it was *)
Theorem C118_refused : forall x args, In None args -> xstep x (XSet args) = Some x.
Proof.
  intros [s k] args H. cbn [SetRunModel.xstep fst snd]. unfold setConstraints.
  assert (A : all_callable args = None).
  { induction args as [|[f|] args IH]; [destruct H|destruct H as [H|H]; [discriminate|]; simpl; now rewrite (IH H)|reflexivity]. }
  now rewrite A.
Qed.
End Changing.
Print Assumptions C118_simulates.
Print Assumptions C118_targets.
Print Assumptions C118_ends.
Print Assumptions C118_made.
Print Assumptions C118_in_force.
Print Assumptions C118_after.
Print Assumptions C118_never_worse.
Print Assumptions C118_in_bounds.
Print Assumptions C118_whole_run.
Print Assumptions C118_refused.

(** ** A run over five individuals; challenge 0 finds 2, the others 9 *)
Definition xf (c : nat) : f64 := if c =? 0 then fofZ 2 else fofZ 9.
Definition xgo := xexec ex_pm (flit 1 (-1)) (fun _ => flit 1 (-1)) (fun _ => 0) (fun _ _ => flit 1 (-2))
  (ev_indiv (fun c _ _ => EvSSE (Some (xf c))) (fun _ => fone) (fun _ => mkEvpop (Some true) 5)) ind_lt (fun _ => false) true (fun _ => flit (-1) 0) c_up89 c_up87 copts.
Definition xrunk (k : list constr) := xgo (xstart copts cl5 k yfm ysc).
Definition xrun := xrunk [].
(** no value may be -1/2, as one of the first challenger is *)
Definition nohalf : constr := fun d => Ok (forallb (fun x => negb (feqb (snd x) (flit (-1) (-1)))) d).
Definition xone (q : quad) (c : nat) : list xevent := map XL (LReq q :: ysteps c).
(** up to the evaluation of challenge 0, and the rest of the run *)
Definition xpre : list xevent := XL LGo :: firstn 6 (xone (mkQuad 0 4 1 2) 0).
Definition xpost : list xevent := skipn 6 (xone (mkQuad 0 4 1 2) 0) ++
  xone (mkQuad 1 0 2 3) 1 ++ xone (mkQuad 2 4 0 1) 2 ++ xone (mkQuad 3 4 0 1) 3 ++ xone (mkQuad 4 3 1 2) 4 ++ map XL [LAll; LJoin [] (flit 1 (-1)) FOk; LFinish].
Definition xok (k : list constr) (i : indiv) : bool := match passesConstraints (pm_names ex_pm) k (ivalues i) with Ok true => true | _ => false end.
Definition xsee (x : option (lst indiv * list constr)) :=
  option_map (fun x => (lph (fst x), length (snd x), map (xok [nohalf]) (pop (lch (fst x))))) x.
(** set after the evaluation has begun, the constraint is too late for challenge
    0; set before, challenge 0 makes no challenger: its evaluation cannot happen,
    and its end follows at once.  A refused call changes nothing *)
Example C118_nonvacuous :
  xsee (xrun (xpre ++ XSet [Some nohalf] :: xpost)) = Some (LEnd RMaxIter, 1, [false; true; true; true; true]) /\
  xsee (xrun (XSet [Some nohalf] :: xpre)) = Some (LStart 0 1, 1, [true; true; true; true; true]) /\
  xsee (xrun (XSet [Some nohalf] :: xpre ++ xpost)) = None /\
  xsee (xrun (XSet [Some nohalf] :: xpre ++ tl xpost)) = Some (LEnd RMaxIter, 1, [true; true; true; true; true]) /\
  xsee (xrun (XSet [Some nohalf; None] :: xpre ++ xpost)) = Some (LEnd RMaxIter, 0, [false; true; true; true; true]) /\
  xsee (xrunk [nohalf] (XSet [None] :: xpre ++ tl xpost)) = Some (LEnd RMaxIter, 1, [true; true; true; true; true]) /\
  xsee (xrun (XSet [Some nohalf] :: XSet [] :: xpre ++ xpost)) = Some (LEnd RMaxIter, 0, [false; true; true; true; true]).
Proof. repeat split; vm_compute; reflexivity. Qed.

(** that run's five individuals are in bounds, and it was not aborted *)
Example C118_in_bounds_nonvacuous : okpm ex_pm /\ (forall i, In i cl5 -> inbounds ex_pm (ivalues i)) /\
  option_map (fun x => prun (lch (fst x))) (xrun (xpre ++ XSet [Some nohalf] :: xpost)) = Some true.
Proof.
  split; [exact ex_pm_ok|]. split; [|vm_compute; reflexivity].
  intros i [<-|[<-|[<-|[<-|[<-|[]]]]]]; apply inbounds_ex; split; vm_compute; reflexivity.
Qed.
(** *** refuted: "All constraints, and only those constraints, defined by this
    call will need to be satisfied with each parameter combination"
    (population.py:867-869): even if all members satisfy them at the time of the
    call, and no other call follows, a finished run may leave a member that does not *)
Theorem C118_late_refuted : ~ (forall p CR F j u func t PS histcrash xSSE npsin up0 up1 o x1 fs es x2 w i,
  (forall i, In i (pop (lch (fst x1))) -> passesConstraints (pm_names p) fs (ivalues i) = Ok true) ->
  (forall a, ~ In (XSet a) es) ->
  xexec p CR F j u (ev_indiv func t PS) ind_lt histcrash xSSE npsin up0 up1 o x1 (XSet (map Some fs) :: es) = Some x2 ->
  lph (fst x2) = LEnd w -> In i (pop (lch (fst x2))) -> passesConstraints (pm_names p) fs (ivalues i) = Ok true).
Proof.
  intros H.
  assert (A : match xrun xpre with Some x1 => forallb (xok [nohalf]) (pop (lch (fst x1))) | None => false end = true) by (vm_compute; reflexivity).
  assert (B : match xrun xpre with Some x1 => xsee (xgo x1 (XSet (map Some [nohalf]) :: xpost)) | None => None end = Some (LEnd RMaxIter, 1, [false; true; true; true; true])) by (vm_compute; reflexivity).
  assert (N : forallb (fun e => match e with XL _ => true | XSet _ => false end) xpost = true) by (vm_compute; reflexivity).
  rewrite forallb_forall in N.
  destruct (xrun xpre) as [x1|]; [|discriminate A]. rewrite forallb_forall in A.
  destruct (xgo x1 (XSet (map Some [nohalf]) :: xpost)) as [x2|] eqn:E2; [|discriminate B].
  unfold xsee, option_map in B. injection B as B1 _ B2.
  destruct (pop (lch (fst x2))) as [|i m] eqn:Ep; [discriminate B2|]. injection B2 as B2 _.
  unfold xgo in E2.
  assert (C : passesConstraints (pm_names ex_pm) [nohalf] (ivalues i) = Ok true).
  { refine (H _ _ _ _ _ _ _ _ _ _ _ _ _ _ x1 [nohalf] xpost x2 RMaxIter i _ _ E2 B1 _).
    - intros i0 Hi. specialize (A i0 Hi). unfold xok in A. destruct (passesConstraints _ _ _) as [[|]|]; auto; discriminate.
    - intros a Ha. specialize (N _ Ha). discriminate N.
    - rewrite Ep. now left. }
  unfold xok in B2. rewrite C in B2. discriminate B2.
Qed.
Print Assumptions C118_late_refuted.
