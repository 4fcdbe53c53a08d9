(** * Property C110: whole runs in which callbacks complain about individuals *)
From Coq Require Import List Bool Arith ZArith Lia Reals Lra.
From Verif Require Import Flt FltMore Py IndivModel IndivProofs ParamModel ParamProofs FManModel RunModel ChalModel ChalProofs ChalSerial ChalLive ChalInst ChalProps LoopModel LoopProofs LoopProps ParamProps CompModel.
Import ListNotations.
Local Open Scope nat_scope.

(** ** the comparison matters only where an evaluation ends *)
Section Swap.
Context {I : Type}.
Variable mk : nat -> I -> I -> I -> I -> mkres I.
Variable ev : nat -> I -> I -> option I.
Variable histcrash : nat -> bool.
Variable xSSE : bool.
Variable npsin : f64 -> f64.
Variables up0 up1 : f64.
Variable o : opts.
Notation step b := (step mk ev b histcrash xSSE).
Notation lstep b := (lstep mk ev b histcrash xSSE npsin up0 up1 o).

Definition agree (f g : I -> I -> bool) (s : st I) (e : event) : Prop :=
  forall c q it ch r, e = EEvalDone c -> nth_error (cs s) c = Some (mkChal q (PEval it ch)) -> ev c it ch = Some r -> f r it = g r it.
Lemma step_ext : forall f g s e, agree f g s e -> step f s e = step g s e.
Proof.
  intros f g s e A. destruct e as [q|c|c|c|c|c|c| | |n]; try reflexivity. simpl.
  destruct (nth_error (cs s) c) as [[q p]|] eqn:E; auto. destruct p as [| | |it ch| | | |]; auto.
  destruct (ev c it ch) as [r|] eqn:Er; auto. now rewrite (A c q it ch r eq_refl E Er).
Qed.
Lemma lstep_ext : forall f g s e, (forall e', e = LC e' -> agree f g (lch s) e') -> lstep f s e = lstep g s e.
Proof.
  intros f g s e A. destruct e as [e| |q| | | |rirs u fo|]; try reflexivity.
  unfold LoopModel.lstep. rewrite (step_ext f g (lch s) e); auto.
Qed.
(** what can happen does not depend on the comparison *)
Lemma step_enabled : forall f g s e s', step f s e = Some s' -> exists s'', step g s e = Some s''.
Proof.
  intros f g s e s' H. destruct e as [q|c|c|c|c|c|c| | |n]; eauto. simpl in *.
  destruct (nth_error (cs s) c) as [[q p]|] eqn:E; [|discriminate]. destruct p as [| | |it ch| | | |]; try discriminate.
  destruct (ev c it ch) as [r|]; eauto. destruct (ChalModel.run s); eauto. destruct (g r it); eauto.
Qed.
Lemma lstep_enabled : forall f g s e s', lstep f s e = Some s' -> exists s'', lstep g s e = Some s''.
Proof.
  intros f g s e s' H. destruct e as [e| |q| | | |rirs u fo|]; eauto. unfold LoopModel.lstep in *.
  assert (X : forall c, step f (lch s) e = Some c -> exists c', step g (lch s) e = Some c') by (intros; eapply step_enabled; eauto).
  destruct (step f (lch s) e) as [c|] eqn:E; [|destruct e; discriminate].
  destruct (X c eq_refl) as [c' ->]. destruct e; try discriminate; eauto.
Qed.

(** a challenge whose evaluation is over never has another one *)
Definition late (s : st I) (c : nat) : Prop :=
  exists x, nth_error (cs s) c = Some x /\ match cpc x with PHist | PRelT | PDone | PFail => True | _ => False end.
Lemma late_step : forall b s e s' c, step b s e = Some s' -> late s c -> late s' c.
Proof.
  intros b s e s' c H (x & Hx & Hd).
  assert (RL : forall k (s : st I), late s c -> late (release1 k s) c).
  { intros k s0 (y & E & D). unfold late. rewrite release1_cs, E.
    destruct (match tl (L s0 k) with [] => false | h :: _ => c =? h end); eauto. eexists. split; [reflexivity|].
    destruct y as [q p]. destruct p; simpl in *; auto. }
  assert (GO : forall c' q' p' p, nth_error (cs s) c' = Some (mkChal q' p') -> 
     (match p' with PHist | PRelT | PDone | PFail => match p with PHist | PRelT | PDone | PFail => True | _ => False end | _ => True end) -> late (goto s c' p) c).
  { intros c' q' p' p E N. unfold late. rewrite goto_cs. destruct (Nat.eqb_spec c c') as [->|]; eauto.
    rewrite Hx in E. injection E as ->. rewrite Hx. simpl in *. eexists. split; [reflexivity|]. simpl. destruct p'; tauto. }
  destruct e as [q|d|d|d|d|d|d| | |n]; simpl in H.
  - destruct (ChalModel.run s); [|discriminate]. simpl in H. destruct (okquad _ q); [|discriminate].
    assert (c < length (cs s)) by (apply nth_error_Some; congruence).
    exists x. split; auto. destruct (prun s); injection H as <-; simpl; rewrite nth_error_app1; auto.
  - destruct (nth_error (cs s) d) as [[q p]|] eqn:E; [|discriminate]. destruct p as [[|]| | | | | | |]; try discriminate.
    repeat (match goal with H : match ?x with _ => _ end = _ |- _ => destruct x end); injection H as <-; eapply GO; eauto; simpl; auto.
  - destruct (nth_error (cs s) d) as [[q p]|] eqn:E; [|discriminate]. destruct p as [|[|? ?]|? ? ? ? [|? ?]| | | | |]; try discriminate; injection H as <-;
    try apply RL; eapply GO; eauto; simpl; auto.
  - destruct (nth_error (cs s) d) as [[q p]|] eqn:E; [|discriminate]. destruct p as [| |? ? ? ? [|? ?]| | | | |]; try discriminate.
    destruct (mk _ _ _ _ _); injection H as <-; eapply GO; eauto; simpl; auto.
  - destruct (nth_error (cs s) d) as [[q p]|] eqn:E; [|discriminate]. destruct p; try discriminate.
    assert (Y : forall z, late (goto s d z) c) by (intros z; eapply GO; eauto; simpl; auto).
    repeat (match goal with H : match ?x with _ => _ end = _ |- _ => destruct x end); injection H as <-; apply Y.
  - destruct (nth_error (cs s) d) as [[q p]|] eqn:E; [|discriminate]. destruct p; try discriminate. injection H as <-.
    eapply GO; eauto; simpl. destruct (histcrash d); auto.
  - destruct (nth_error (cs s) d) as [[q p]|] eqn:E; [|discriminate]. destruct p; try discriminate. injection H as <-. apply RL.
    eapply GO; eauto; simpl; auto.
  - injection H as <-. exists x; auto.
  - injection H as <-. exists x; auto.
  - destruct (nth_error (abq s) n); [|discriminate]. injection H as <-. apply RL. exists x; auto.
Qed.
Lemma gen_end_cs : forall g (s : lst I), cs (lch (gen_end npsin up0 up1 o g s)) = cs (lch s) /\ pop (lch (gen_end npsin up0 up1 o g s)) = pop (lch s).
Proof.
  intros g s. unfold gen_end. destruct (generation _ _ _ _ _ _ _) as [[r l] w]. unfold loop_head, left.
  destruct w as [[]|]; try destruct (_ <? _); try destruct (r_run r); auto.
Qed.
(** a step of the run changes challenges and population as a step of a challenge does, or not at all *)
Lemma lstep_cases : forall b s e s', lstep b s e = Some s' ->
  (exists e', step b (lch s) e' = Some (lch s') /\ (e = LC e' \/ exists q, e' = ERequest q)) \/
  (cs (lch s') = cs (lch s) /\ pop (lch s') = pop (lch s)).
Proof.
  intros b s e s' H. destruct e as [e| |q| | | |rirs u fo|]; unfold LoopModel.lstep in H.
  - left. exists e. destruct e; try discriminate; destruct (step b (lch s) _) as [cc|] eqn:E; try discriminate; injection H as <-; auto.
  - destruct (lph s); try discriminate. destruct (ChalModel.run _); injection H as <-; right; [auto|apply gen_end_cs].
  - destruct (lph s); try discriminate. destruct (_ && _); [|discriminate].
    left. exists (ERequest q). destruct (step b (lch s) (ERequest q)) as [c|] eqn:E; [|discriminate]. injection H as <-. eauto.
  - destruct (lph s); try discriminate. destruct (_ <? _); [|discriminate]. injection H as <-; right; apply gen_end_cs.
  - destruct (lph s); try discriminate. destruct (_ && _); [|discriminate]. injection H as <-; right; auto.
  - destruct (lph s); try discriminate.
    + destruct (ChalModel.run _); [discriminate|]. injection H as <-; right; apply gen_end_cs.
    + destruct (existsb _ _); [injection H as <-; right; apply gen_end_cs|].
      destruct (ChalModel.run _); [discriminate|]. injection H as <-; right; apply gen_end_cs.
  - destruct (lph s); try discriminate. destruct (_ && _); [|discriminate]. injection H as <-; right; apply gen_end_cs.
  - destruct (lph s); try discriminate. injection H as <-. right; auto.
Qed.
Lemma late_lstep : forall b s e s' c, lstep b s e = Some s' -> late (lch s) c -> late (lch s') c.
Proof.
  intros b s e s' c H Hl. destruct (lstep_cases b s e s' H) as [(e' & H' & _)|[E _]].
  - eapply late_step; eauto.
  - destruct Hl as (x & Hx & D). exists x. split; auto. congruence.
Qed.
(** who is being evaluated was being evaluated before, or has just been made *)
Definition from_mk (s : st I) (c : nat) (ch : I) : Prop :=
  exists q it, nth_error (cs s) c = Some (mkChal q (PEval it ch)).
Lemma eval_step : forall b s e s' c ch, step b s e = Some s' -> from_mk s' c ch ->
  from_mk s c ch \/ exists it ib i0 i1, mk c it ib i0 i1 = Candidate ch.
Proof.
  intros b s e s' c ch H (q & it & Hx).
  assert (RL : forall k (s0 : st I) q it, nth_error (cs (release1 k s0)) c = Some (mkChal q (PEval it ch)) -> from_mk s0 c ch).
  { intros k s0 q1 it1 E. rewrite release1_cs in E. destruct (nth_error (cs s0) c) as [[q0 p0]|] eqn:E0; [|discriminate].
    exists q1, it1. rewrite E0.
    destruct (match tl (L s0 k) with [] => false | h :: _ => c =? h end); [|exact E]. destruct p0; try discriminate E; exact E. }
  assert (GO : forall d p q it, nth_error (cs (goto s d p)) c = Some (mkChal q (PEval it ch)) ->
     from_mk s c ch \/ (d = c /\ p = PEval it ch)).
  { intros d p q1 it1 E. rewrite goto_cs in E. destruct (Nat.eqb_spec c d) as [->|]; [|left; now exists q1, it1].
    destruct (nth_error (cs s) d) as [y|]; [|discriminate]. simpl in E. injection E as _ ->. auto. }
  assert (GN : forall d p, (forall it, p <> PEval it ch) -> from_mk (goto s d p) c ch -> from_mk s c ch).
  { intros d p N (q1 & it1 & E). destruct (GO d p q1 it1 E) as [G|[_ G]]; auto. now apply N in G. }
  destruct e as [q0|d|d|d|d|d|d| | |m]; simpl in H.
  - left. destruct (ChalModel.run s); [|discriminate]. simpl in H. destruct (okquad _ q0); [|discriminate].
    exists q, it. destruct (Nat.lt_ge_cases c (length (cs s))) as [Lc|Lc];
    destruct (prun s); injection H as <-; simpl in Hx; try (rewrite nth_error_app1 in Hx by auto; exact Hx);
    exfalso; rewrite nth_error_app2 in Hx by auto; destruct (c - length (cs s)) as [|[|?]]; discriminate.
  - left. destruct (nth_error (cs s) d) as [[q0 p]|] eqn:E; [|discriminate]. destruct p as [[|]| | | | | | |]; try discriminate.
    repeat (match goal with H : match ?x with _ => _ end = _ |- _ => destruct x end); injection H as <-;
    (eapply GN; [|exists q, it; exact Hx]; intros it1 C; discriminate C).
  - left. destruct (nth_error (cs s) d) as [[q0 p]|] eqn:E; [|discriminate]. destruct p as [|[|? ?]|? ? ? ? [|? ?]| | | | |]; try discriminate; injection H as <-;
    try apply RL in Hx; (eapply GN; [|first [exact Hx|exists q, it; exact Hx]]; intros it1 C; discriminate C).
  - destruct (nth_error (cs s) d) as [[q0 p]|] eqn:E; [|discriminate]. destruct p as [| |i1 i2 i3 i4 [|? ?]| | | | |]; try discriminate.
    destruct (mk d i1 i2 i3 i4) eqn:Em; injection H as <-;
    try (left; eapply GN; [|exists q, it; exact Hx]; intros it1 C; discriminate C).
    destruct (GO _ _ _ _ Hx) as [G|[-> G]]; auto. injection G as -> ->. right. now exists it, i2, i3, i4.
  - left. destruct (nth_error (cs s) d) as [[q0 p]|] eqn:E; [|discriminate]. destruct p; try discriminate.
    assert (Y : forall z, (forall it, z <> PEval it ch) -> forall s1 : st I, cs s1 = cs (goto s d z) -> cs s1 = cs s' -> from_mk s c ch).
    { intros z N s1 E1 E2. eapply GN; [exact N|]. exists q, it. rewrite <- E1, E2. exact Hx. }
    repeat (match goal with H : match ?x with _ => _ end = _ |- _ => destruct x end); injection H as <-;
    (eapply Y; [|reflexivity|reflexivity]; intros it1 C; try discriminate C; destruct xSSE; discriminate C).
  - left. destruct (nth_error (cs s) d) as [[q0 p]|] eqn:E; [|discriminate]. destruct p; try discriminate. injection H as <-.
    eapply GN; [|exists q, it; exact Hx]; intros it1 C; destruct (histcrash d); discriminate C.
  - left. destruct (nth_error (cs s) d) as [[q0 p]|] eqn:E; [|discriminate]. destruct p; try discriminate. injection H as <-. apply RL in Hx.
    eapply GN; [|exact Hx]; intros it1 C; discriminate C.
  - left. injection H as <-. exists q, it; exact Hx.
  - left. injection H as <-. exists q, it; exact Hx.
  - left. destruct (nth_error (abq s) m); [|discriminate]. injection H as <-. apply RL in Hx. exact Hx.
Qed.
End Swap.

Section Complaints.
Variables (p : pm) (cons : list constr) (CR : f64) (F : nat -> f64) (j : nat -> nat) (u : nat -> nat -> f64).
Variables (func : nat -> option (list f64) -> evalres) (t : nat -> f64) (PS : nat -> evpop).
Variables (histcrash : nat -> bool) (xSSE : bool) (npsin : f64 -> f64) (up0 up1 : f64) (o : opts).
Variable l : list indiv.
Variables (fm : fman) (sc : score).
Notation n := (length l).
Notation mko := (mk_obj p cons CR F j u n).
Notation evo := (ev_obj func t PS n).
Notation start := (cstart o l fm sc).
Notation cstep := (cstep p cons CR F j u func t PS histcrash xSSE npsin up0 up1 o n).
Notation cexec := (cexec p cons CR F j u func t PS histcrash xSSE npsin up0 up1 o n).
(** the run when the outcome of each comparison is given *)
Notation olexec V := (lexec mko evo (fun r _ => V (oid r)) histcrash xSSE npsin up0 up1 o).
Notation olstep V := (lstep mko evo (fun r _ => V (oid r)) histcrash xSSE npsin up0 up1 o).
(** population and challenges *)
Notation members x := (pop (lch (fst x))).
Notation chals x := (cs (lch (fst x))).

(** the events without the complaints *)
Definition plain (es : list cevent) : list levent := flat_map (fun e => match e with CL e => [e] | CBlack _ => [] end) es.

Lemma cexec_app : forall es1 es2 x, cexec x (es1 ++ es2) = match cexec x es1 with Some x1 => cexec x1 es2 | None => None end.
Proof. induction es1 as [|e es1 IH]; simpl; intros; auto. destruct (cstep x e); auto. Qed.
Lemma ev_oid : forall c it ch r, evo c it ch = Some r -> oid r = n + c.
Proof. intros c it ch r. unfold ev_obj. destruct (ev_indiv _ _ _ _ _ _); [|discriminate]. now intros [= <-]. Qed.

(** ** the run is a run of LoopModel.v in which each comparison has some outcome *)
Lemma other_verdict : forall c V V' es s, late (lch s) c -> (forall k, k <> n + c -> V k = V' k) -> olexec V s es = olexec V' s es.
Proof.
  intros c V V'. induction es as [|e es IH]; intros s Hl A; simpl; auto.
  rewrite (lstep_ext mko evo histcrash xSSE npsin up0 up1 o (fun r _ => V (oid r)) (fun r _ => V' (oid r)) s e).
  - destruct (olstep V' s e) as [s1|] eqn:E; auto. apply IH; auto. eapply late_lstep; eauto.
  - intros e' _ d q it ch r -> Hd Hr. apply A. rewrite (ev_oid _ _ _ _ Hr). intros C.
    assert (d = c) by lia. subst d. destruct Hl as (x & Hx & D). rewrite Hd in Hx. injection Hx as <-. exact D.
Qed.
Lemma sim : forall es x x', cexec x es = Some x' -> exists V, olexec V (fst x) (plain es) = Some (fst x').
Proof.
  induction es as [|e es IH]; intros x x' H; cbn [CompModel.cexec] in H.
  - injection H as <-. exists (fun _ => true). reflexivity.
  - destruct e as [e|k]; unfold CompModel.cstep in H.
    + destruct (lstep _ _ _ _ _ _ _ _ _ (fst x) e) as [s1|] eqn:E; [|discriminate].
      destruct (IH _ _ H) as [V HV]. cbn [fst] in HV. cbn [plain flat_map app].
      (* the outcome of this step's comparison *)
      assert (X : (exists c q it ch r, e = LC (EEvalDone c) /\ nth_error (chals x) c = Some (mkChal q (PEval it ch)) /\ evo c it ch = Some r) \/
                  (forall e', e = LC e' -> forall f g, agree evo f g (lch (fst x)) e')).
      { destruct e as [e| | | | | | |]; try (right; discriminate).
        destruct e; try (right; intros e' [= <-] f g; intros ? ? ? ? ? C; discriminate C).
        destruct (nth_error (chals x) c) as [[q pp]|] eqn:Ec; [|right; intros e' [= <-] f g c' q it ch r [= <-] C; congruence].
        destruct pp as [| | |it ch| | | |]; try (right; intros e' [= <-] f g c' q' it' ch' r' [= <-] C; congruence).
        destruct (evo c it ch) as [r|] eqn:Er.
        - left. exists c, q, it, ch, r. auto.
        - right; intros e' [= <-] f g c' q' it' ch' r' [= <-] C. rewrite Ec in C. injection C as <- <- <-. congruence. }
      destruct X as [(c & q & it & ch & r & -> & Ec & Er)|X].
      * exists (fun k => if k =? n + c then better_now (snd x) r it else V k). cbn [LoopModel.lexec].
        rewrite (lstep_ext mko evo histcrash xSSE npsin up0 up1 o _ (better_now (snd x))).
        2:{ intros e' [= <-] c' q' it' ch' r' [= <-] Ec' Er'. rewrite Ec in Ec'. injection Ec' as <- <- <-. rewrite Er in Er'. injection Er' as <-.
            now rewrite (ev_oid _ _ _ _ Er), Nat.eqb_refl. }
        rewrite E. rewrite <- HV. apply (other_verdict c (fun k => if k =? n + c then better_now (snd x) r it else V k) V).
        -- simpl in E. rewrite Ec, Er in E.
           assert (GL : forall z, match z with PHist | PRelT => True | _ => False end -> late (goto (lch (fst x)) c z) c).
           { intros z Hz. exists (mkChal q z). rewrite goto_cs, Nat.eqb_refl, Ec. split; auto. simpl. destruct z; tauto. }
           repeat (match goal with H : match match ?x with _ => _ end with _ => _ end = _ |- _ => destruct x end); injection E as <-; cbn [lch];
             try (apply GL; exact Logic.I).
           all: try (apply GL; destruct xSSE; exact Logic.I).
        -- intros k Hk. destruct (Nat.eqb_spec k (n + c)); congruence.
      * exists V. cbn [LoopModel.lexec]. rewrite (lstep_ext mko evo histcrash xSSE npsin up0 up1 o _ (better_now (snd x))); [now rewrite E|].
        intros e' He. apply X. exact He.
    + destruct (_ || _); [|discriminate]. exact (IH _ _ H).
Qed.
Lemma objects_length : length (objects l) = n.
Proof. unfold objects. rewrite map_length, combine_length, seq_length. lia. Qed.

(** *** C110: complaints decide comparisons, nothing else: with the outcomes of
    the comparisons given, the run is one of LoopModel.v *)
Theorem C110_simulates : forall es x, cexec start es = Some x ->
  exists V, olexec V (linit o (objects l) fm sc) (plain es) = Some (fst x).
Proof. intros es x H. exact (sim es start x H). Qed.
(** so generations are as ever, and however much is complained about the run ends *)
Theorem C110_targets : forall es x c q, cexec start es = Some x -> nth_error (lrequests (plain es)) c = Some q ->
  kt q = c mod n /\ c < o_maxiter o * n.
Proof.
  intros es x c q H Hq. destruct (C110_simulates es x H) as [V HV]. rewrite <- objects_length.
  eapply C80_targets_in_turn; eauto.
Qed.
Theorem C110_ends : forall es x, cexec start es = Some x ->
  inner (plain es) <= o_maxiter o * (n * (n + 10) + 3) + 2 + aborts (plain es) * n /\
  (4 <= n -> (forall w, lph (fst x) <> LEnd w) -> exists e x', linternal e = true /\ cstep x (CL e) = Some x').
Proof.
  intros es x H. destruct (C110_simulates es x H) as [V HV]. split.
  - rewrite <- objects_length. eapply C84_bounded; eauto.
  - intros H4 NE. rewrite <- objects_length in H4.
    destruct (C84_goes_on _ _ _ _ _ _ _ _ _ _ _ _ H4 _ _ HV NE) as (e & s' & He & Hs).
    destruct (lstep_enabled _ _ _ _ _ _ _ _ _ (better_now (snd x)) _ _ _ Hs) as [s'' Hs''].
    exists e, (s'', snd x). split; auto. unfold CompModel.cstep. now rewrite Hs''.
Qed.

(** ** invariants *)
Lemma cGI : forall es x, cexec start es = Some x -> GI (lch (fst x)).
Proof.
  intros es x H. destruct (C110_simulates es x H) as [V HV].
  destruct (run_inv _ _ _ _ _ _ _ _ _ _ _ _ _ _ HV) as [[g Hg] _ _]. eapply GI_gexec; [apply GI_init|exact Hg].
Qed.
Lemma evaluated_late : forall (s : st obj) c, evaluated s c = true -> late s c.
Proof.
  intros s c. unfold evaluated. destruct (nth_error (cs s) c) as [y|] eqn:E; [|discriminate].
  intros H. exists y. split; auto. destruct (cpc y); auto; discriminate.
Qed.
Definition BI (x : lst obj * list nat) : Prop := forall k, In k (snd x) -> k < n \/ late (lch (fst x)) (k - n).
Lemma BI_step : forall x e x', BI x -> cstep x e = Some x' -> BI x'.
Proof.
  intros x e x' B H k Hk. destruct e as [e|d]; unfold CompModel.cstep in H.
  - destruct (lstep _ _ _ _ _ _ _ _ _ (fst x) e) as [s1|] eqn:E; [|discriminate]. injection H as <-. cbn [fst snd] in *.
    destruct (B k Hk); auto. right. eapply late_lstep; eauto.
  - destruct (_ || _) eqn:E; [|discriminate]. injection H as <-. cbn [fst snd] in *. destruct Hk as [<-|Hk]; [|now apply B].
    apply orb_true_iff in E. destruct E as [E|E]; [left; now apply Nat.ltb_lt|right; now apply evaluated_late].
Qed.
Lemma BI_exec : forall es x x', BI x -> cexec x es = Some x' -> BI x'.
Proof.
  induction es as [|e es IH]; intros x x' B H; cbn [CompModel.cexec] in H; [now injection H as <-|].
  destruct (cstep x e) as [x1|] eqn:E; [|discriminate]. eapply IH; [eapply BI_step; eauto|exact H].
Qed.
Lemma cBI : forall es x, cexec start es = Some x -> BI x.
Proof. intros es x H. eapply BI_exec; [|exact H]. intros k []. Qed.
Lemma snd_step : forall x e x' k, cstep x e = Some x' -> In k (snd x) -> In k (snd x').
Proof.
  intros x e x' k H Hk. destruct e as [e|d]; unfold CompModel.cstep in H.
  - destruct (lstep _ _ _ _ _ _ _ _ _ _ _); [|discriminate]. now injection H as <-.
  - destruct (_ || _); [|discriminate]. injection H as <-. now right.
Qed.
Lemma snd_exec : forall es x x' k, cexec x es = Some x' -> In k (snd x) -> In k (snd x').
Proof.
  induction es as [|e es IH]; intros x x' k H Hk; cbn [CompModel.cexec] in H; [now injection H as <-|].
  destruct (cstep x e) as [x1|] eqn:E; [|discriminate]. eapply IH; [exact H|eapply snd_step; eauto].
Qed.
Lemma look_in : forall B a, In (oid a) B -> look B a = ind_blacklist (oind a).
Proof.
  intros B a H. unfold look. replace (existsb (Nat.eqb (oid a)) B) with true; auto. symmetry.
  apply existsb_exists. exists (oid a). split; auto. apply Nat.eqb_refl.
Qed.
Lemma look_out : forall B a, ~ In (oid a) B -> look B a = oind a.
Proof.
  intros B a H. unfold look. destruct (existsb (Nat.eqb (oid a)) B) eqn:E; auto. apply existsb_exists in E.
  destruct E as (k & Hk & E). apply Nat.eqb_eq in E. subst k. contradiction.
Qed.
(** nobody has complained about a challenger that is still being evaluated *)
Lemma fresh : forall es x c q it ch r, cexec start es = Some x -> nth_error (chals x) c = Some (mkChal q (PEval it ch)) ->
  evo c it ch = Some r -> ~ In (oid r) (snd x).
Proof.
  intros es x c q it ch r H Hc Hr Hin. rewrite (ev_oid _ _ _ _ Hr) in Hin.
  destruct (cBI es x H _ Hin) as [C|(y & Hy & D)]; [lia|]. replace (n + c - n) with c in Hy by lia. rewrite Hc in Hy. injection Hy as <-. exact D.
Qed.
Lemma cstep_pop : forall x e x', cstep x e = Some x' ->
  members x' = members x \/
  exists c q it ch r, e = CL (LC (EEvalDone c)) /\ nth_error (chals x) c = Some (mkChal q (PEval it ch)) /\
    evo c it ch = Some r /\ better_now (snd x) r it = true /\ members x' = upd (kt q) r (members x).
Proof.
  intros x e x' H. destruct e as [e|d]; unfold CompModel.cstep in H.
  - destruct (lstep _ _ _ _ _ _ _ _ _ (fst x) e) as [s1|] eqn:E; [|discriminate]. injection H as <-. cbn [fst snd].
    destruct (lstep_cases _ _ _ _ _ _ _ _ _ _ _ _ E) as [(e' & H' & He)|[_ ->]]; auto.
    destruct (step_pop _ _ _ _ _ _ _ _ H') as [_ [->|(c & q & it & ch & r & -> & E1 & _ & E2 & E3 & E4)]]; auto.
    right. exists c, q, it, ch, r. destruct He as [->|[q' C]]; [auto|discriminate].
  - destruct (_ || _); [|discriminate]. injection H as <-. auto.
Qed.
(** one step, seen from a slot *)
Lemma cslot_step : forall es x e x' k a, cexec start es = Some x -> cstep x e = Some x' -> nth_error (members x) k = Some a ->
  nth_error (members x') k = Some a \/
  exists b, nth_error (members x') k = Some b /\ ind_lt (oind b) (look (snd x) a) = true.
Proof.
  intros es x e x' k a H Hs Ha. destruct (cstep_pop x e x' Hs) as [E|(c & q & it & ch & r & -> & Hc & Hr & Hb & E)]; [rewrite E; auto|].
  rewrite E. assert (V := gi_val _ (cGI es x H) c _ it Hc eq_refl). simpl in V.
  unfold better_now in Hb. rewrite (look_out _ r (fresh es x c q it ch r H Hc Hr)) in Hb.
  destruct (Nat.eq_dec k (kt q)) as [->|Nk].
  - right. exists r. rewrite upd_same by (apply nth_error_Some; congruence). split; auto. congruence.
  - left. now rewrite upd_other by congruence.
Qed.

(** *** C110: what an individual in a slot is lost to: to a better one, or to a
    complaint about it or about a better one that has taken its place *)
Theorem C110_slot : forall es1 es2 x1 x2 k a, cexec start es1 = Some x1 -> cexec x1 es2 = Some x2 ->
  nth_error (members x1) k = Some a ->
  exists es3 es4 y z, es2 = es3 ++ es4 /\ cexec x1 es3 = Some y /\ nth_error (members y) k = Some z /\
    (z = a \/ ind_lt (oind z) (oind a) = true) /\
    (In (oid z) (snd x2) \/ nth_error (members x2) k = Some z).
Proof.
  intros es1 es2. revert es1. induction es2 as [|e es2 IH]; intros es1 x1 x2 k a H1 H2 Ha; cbn [CompModel.cexec] in H2.
  - injection H2 as <-. exists [], [], x1, a. auto 7.
  - destruct (cstep x1 e) as [x|] eqn:E; [|discriminate].
    destruct (in_dec Nat.eq_dec (oid a) (snd x2)) as [Hi|Hi].
    { exists [], (e :: es2), x1, a. auto 7. }
    assert (H : cexec start (es1 ++ [e]) = Some x) by (rewrite cexec_app, H1; cbn [CompModel.cexec]; now rewrite E).
    assert (Hn : look (snd x1) a = oind a).
    { apply look_out. intros C. apply Hi. eapply snd_exec; [exact H2|]. eapply snd_step; eauto. }
    destruct (cslot_step es1 x1 e x k a H1 E Ha) as [Ha'|(b & Hb & Lb)].
    + destruct (IH _ _ _ _ _ H H2 Ha') as (es3 & es4 & y & z & -> & A & B & C & D).
      exists (e :: es3), es4, y, z. cbn [CompModel.cexec]. rewrite E. auto.
    + rewrite Hn in Lb. destruct (IH _ _ _ _ _ H H2 Hb) as (es3 & es4 & y & z & -> & A & B & C & D).
      exists (e :: es3), es4, y, z. cbn [CompModel.cexec]. rewrite E. repeat split; auto. right.
      destruct C as [->|C]; auto. exact (proj1 (proj2 (proj2 (lt_strict_order (oind z) (oind b) (oind a)))) C Lb).
Qed.

(** *** C110: nothing good is lost but by complaints *)
Lemma noNaN_exec : forall es1 es2 x1 x2, cexec start es1 = Some x1 -> cexec x1 es2 = Some x2 ->
  (forall a, In a (members x1) -> isnan (ind_SSE (oind a)) = false) -> forall a, In a (members x2) -> isnan (ind_SSE (oind a)) = false.
Proof.
  intros es1 es2. revert es1. induction es2 as [|e es2 IH]; intros es1 x1 x2 H1 H2 N; cbn [CompModel.cexec] in H2; [now injection H2 as <-|].
  destruct (cstep x1 e) as [x|] eqn:E; [|discriminate].
  apply (IH (es1 ++ [e]) x x2); auto; [rewrite cexec_app, H1; cbn [CompModel.cexec]; now rewrite E|].
  destruct (cstep_pop x1 e x E) as [->|(c & q & it & ch & r & -> & Hc & Hr & Hb & ->)]; auto.
  intros a Ha. apply In_nth_error in Ha. destruct Ha as [k Ha]. destruct (Nat.eq_dec k (kt q)) as [->|Nk].
  - assert (V := gi_val _ (cGI es1 x1 H1) c _ it Hc eq_refl). simpl in V.
    rewrite upd_same in Ha by (apply nth_error_Some; congruence). injection Ha as <-.
    unfold better_now in Hb. rewrite (look_out _ r (fresh es1 x1 c q it ch r H1 Hc Hr)) in Hb.
    apply lt_reals in Hb. tauto.
  - rewrite upd_other in Ha by congruence. apply nth_error_In in Ha. auto.
Qed.
Lemma first_noNaN : (forall i, In i l -> isnan (ind_SSE i) = false) -> forall a, In a (members start) -> isnan (ind_SSE (oind a)) = false.
Proof.
  intros H a Ha. unfold cstart in Ha. cbn [fst] in Ha. rewrite lch_start in Ha. cbn [init pop] in Ha. unfold objects in Ha.
  apply in_map_iff in Ha. destruct Ha as ([k i] & <- & Ha). apply in_combine_r in Ha. simpl. auto.
Qed.
(** for every evaluation that ends while the run is on, with an SSE that is not
    NaN: at any later time there is a member, or a former one that has been
    complained about, that is at least as good *)
Theorem C110_best : (forall i, In i l -> isnan (ind_SSE i) = false) ->
  forall es1 es2 x1 x2 c q it ch r,
  cexec start es1 = Some x1 -> nth_error (chals x1) c = Some (mkChal q (PEval it ch)) -> ChalModel.run (lch (fst x1)) = true ->
  evo c it ch = Some r -> isnan (ind_SSE (oind r)) = false ->
  cexec x1 (CL (LC (EEvalDone c)) :: es2) = Some x2 ->
  exists es3 es4 y z, CL (LC (EEvalDone c)) :: es2 = es3 ++ es4 /\ cexec x1 es3 = Some y /\ In z (members y) /\
    fleb (ind_SSE (oind z)) (ind_SSE (oind r)) = true /\ (In (oid z) (snd x2) \/ In z (members x2)).
Proof.
  intros N0 es1 es2 x1 x2 c q it ch r H1 Hc Hrun Hr Nr H2.
  assert (V := gi_val _ (cGI es1 x1 H1) c _ it Hc eq_refl). simpl in V.
  assert (Nit : isnan (ind_SSE (oind it)) = false).
  { apply (noNaN_exec [] es1 start x1 eq_refl H1 (first_noNaN N0)). eapply nth_error_In; eauto. }
  assert (Lr := look_out _ r (fresh es1 x1 c q it ch r H1 Hc Hr)).
  (* one of the two is as good as the challenger *)
  assert (X : (better_now (snd x1) r it = true) \/ (In (oid it) (snd x1) /\ fleb (ind_SSE (oind it)) (ind_SSE (oind r)) = true) \/
              (fleb (ind_SSE (oind it)) (ind_SSE (oind r)) = true)).
  { destruct (better_now (snd x1) r it) eqn:Eb; auto. right. unfold better_now in Eb. rewrite Lr in Eb.
    destruct (in_dec Nat.eq_dec (oid it) (snd x1)) as [Hi|Hi].
    - rewrite (look_in _ _ Hi) in Eb. right. unfold ind_lt in Eb. rewrite !float_SSE in Eb. 
      assert (E1 : ind_SSE (ind_blacklist (oind it)) = finf) by reflexivity. rewrite E1 in Eb.
      destruct (fleb_total _ _ Nit Nr) as [T|T]; auto. exfalso.
      apply fltb_spec in T. apply not_true_iff_false in Eb. apply Eb. apply fltb_spec. split; auto. split; auto.
      assert (KB := key_bound (ind_SSE (oind it))). change (key finf) with big. lra.
    - rewrite (look_out _ _ Hi) in Eb. right. unfold ind_lt in Eb. rewrite !float_SSE in Eb.
      destruct (fleb_total _ _ Nit Nr) as [T|T]; auto. congruence. }
  destruct X as [Eb|X].
  - cbn [CompModel.cexec] in H2. destruct (cstep x1 (CL (LC (EEvalDone c)))) as [x|] eqn:E; [|discriminate].
    assert (H : cexec start (es1 ++ [CL (LC (EEvalDone c))]) = Some x) by (rewrite cexec_app, H1; cbn [CompModel.cexec]; now rewrite E).
    assert (Hm : nth_error (members x) (kt q) = Some r).
    { assert (E' := E). unfold CompModel.cstep, lstep, step in E'. rewrite Hc, Hr, Hrun, Eb in E'. injection E' as <-. simpl.
      rewrite upd_same; auto. apply nth_error_Some. congruence. }
    destruct (C110_slot _ _ _ _ _ _ H H2 Hm) as (es3 & es4 & y & z & -> & A & B & C & D).
    exists (CL (LC (EEvalDone c)) :: es3), es4, y, z. cbn [CompModel.cexec]. rewrite E. repeat split; auto.
    + eapply nth_error_In; eauto.
    + destruct C as [->|C]; [now apply fleb_refl|]. unfold ind_lt in C. rewrite !float_SSE in C. now apply fltb_fleb.
    + destruct D as [D|D]; auto. right. eapply nth_error_In; eauto.
  - assert (Le : fleb (ind_SSE (oind it)) (ind_SSE (oind r)) = true) by tauto.
    destruct (C110_slot _ _ _ _ _ _ H1 H2 V) as (es3 & es4 & y & z & -> & A & B & C & D).
    exists es3, es4, y, z. repeat split; auto.
    + eapply nth_error_In; eauto.
    + destruct C as [->|C]; auto. unfold ind_lt in C. rewrite !float_SSE in C. eapply fleb_trans; [apply fltb_fleb; exact C|exact Le].
    + destruct D as [D|D]; auto. right. eapply nth_error_In; eauto.
Qed.
(** the same for the individuals that setup has delivered *)
Theorem C110_first : forall es x i, cexec start es = Some x -> In i l -> isnan (ind_SSE i) = false ->
  exists es3 es4 y z, es = es3 ++ es4 /\ cexec start es3 = Some y /\ In z (members y) /\
    fleb (ind_SSE (oind z)) (ind_SSE i) = true /\ (In (oid z) (snd x) \/ In z (members x)).
Proof.
  intros es x i H Hi Ni. assert (M : exists k a, nth_error (members start) k = Some a /\ oind a = i).
  { unfold cstart. cbn [fst]. rewrite lch_start. cbn [init pop]. unfold objects. apply In_nth_error in Hi. destruct Hi as [k Hk].
    assert (k < n) by (apply nth_error_Some; congruence).
    exists k, (mkObj k i). split; auto. rewrite nth_error_map.
    assert (C : forall m (l : list indiv), k < length l -> nth_error l k = Some i -> nth_error (combine (seq m (length l)) l) k = Some (m + k, i)).
    { clear. induction k as [|k IH]; intros m [|a l] H E; simpl in *; try lia.
      - injection E as ->. now rewrite Nat.add_0_r.
      - rewrite (IH (S m) l) by (auto; lia). f_equal. f_equal. lia. }
    now rewrite C. }
  destruct M as (k & a & Ha & <-).
  destruct (C110_slot [] es start x k a eq_refl H Ha) as (es3 & es4 & y & z & -> & A & B & C & D).
  exists es3, es4, y, z. repeat split; auto.
  - eapply nth_error_In; eauto.
  - destruct C as [->|C]; [now apply fleb_refl|]. unfold ind_lt in C. rewrite !float_SSE in C. now apply fltb_fleb.
  - destruct D as [D|D]; auto. right. eapply nth_error_In; eauto.
Qed.
(** so, nobody complaining, the best member is as good as everything evaluated *)
Theorem C110_best_of_all : (forall i, In i l -> isnan (ind_SSE i) = false) ->
  forall es1 es2 x1 x2 c q it ch r,
  cexec start es1 = Some x1 -> nth_error (chals x1) c = Some (mkChal q (PEval it ch)) -> ChalModel.run (lch (fst x1)) = true ->
  evo c it ch = Some r -> isnan (ind_SSE (oind r)) = false ->
  cexec x1 (CL (LC (EEvalDone c)) :: es2) = Some x2 -> (forall k, ~ In (CBlack k) (es1 ++ es2)) ->
  exists z, In z (members x2) /\ look (snd x2) z = oind z /\ fleb (ind_SSE (oind z)) (ind_SSE (oind r)) = true.
Proof.
  intros N0 es1 es2 x1 x2 c q it ch r H1 Hc Hrun Hr Nr H2 NB.
  destruct (C110_best N0 es1 es2 x1 x2 c q it ch r H1 Hc Hrun Hr Nr H2) as (_ & _ & _ & z & _ & _ & _ & A & B).
  assert (S0 : forall es x x', (forall k, ~ In (CBlack k) es) -> cexec x es = Some x' -> snd x' = snd x).
  { clear. induction es as [|e es IH]; intros x x' N H; cbn [CompModel.cexec] in H; [now injection H as <-|].
    destruct (cstep x e) as [x1|] eqn:E; [|discriminate]. rewrite (IH x1 x'); auto; [|intros k C; apply (N k); now right].
    destruct e as [e|k]; [|exfalso; apply (N k); now left]. unfold CompModel.cstep in E.
    destruct (lstep _ _ _ _ _ _ _ _ _ _ _); [|discriminate]. now injection E as <-. }
  assert (E : snd x2 = []).
  { assert (N2 : forall k, ~ In (CBlack k) (CL (LC (EEvalDone c)) :: es2)).
    { intros k [C|C]; [discriminate|]. apply (NB k). apply in_or_app. auto. }
    rewrite (S0 _ _ _ N2 H2). apply (S0 es1 start x1); auto. intros k C. apply (NB k). apply in_or_app. auto. }
  exists z. rewrite E in *. destruct B as [[]|B]. auto.
Qed.

(** ** every individual is its own object *)
Record OI (x : lst obj * list nat) : Prop := {
  oi_new : forall c q it ch, nth_error (chals x) c = Some (mkChal q (PEval it ch)) -> oid ch = n + c;
  oi_old : forall a, In a (members x) -> oid a < n \/ late (lch (fst x)) (oid a - n);
  oi_nd : NoDup (map oid (members x)) }.
Lemma in_upd : forall {A} k (r a : A) m, In a (upd k r m) -> a = r \/ In a m.
Proof.
  intros A k r a m H. apply In_nth_error in H. destruct H as [i H]. destruct (Nat.eq_dec i k) as [->|N].
  - left. assert (k < length (upd k r m)) by (apply nth_error_Some; congruence). rewrite upd_length in *. rewrite upd_same in H by auto. congruence.
  - right. rewrite upd_other in H by congruence. eapply nth_error_In; eauto.
Qed.
Lemma nd_upd : forall k r (m : list obj), NoDup (map oid m) -> ~ In (oid r) (map oid m) -> NoDup (map oid (upd k r m)).
Proof.
  intros k r m N F0. rewrite NoDup_nth_error in *. intros i i' Hi E. rewrite map_length, upd_length in Hi.
  rewrite !nth_error_map in E.
  assert (X : forall i, nth_error m i <> None -> forall a, nth_error m i = Some a -> oid a <> oid r).
  { intros i0 _ a Ha C. apply F0. rewrite <- C. apply in_map. eapply nth_error_In; eauto. }
  destruct (Nat.eq_dec i k) as [->|N1]; destruct (Nat.eq_dec i' k) as [->|N2]; auto.
  - rewrite upd_same in E by auto. rewrite upd_other in E by congruence. exfalso. destruct (nth_error m i') as [a|] eqn:Ea; [|discriminate].
    simpl in E. injection E as E. apply (X i' ltac:(congruence) a Ea). congruence.
  - rewrite upd_other in E by congruence. destruct (nth_error m i) as [a|] eqn:Ea; [|apply nth_error_None in Ea; lia].
    destruct (nth_error (upd k r m) k) as [z|] eqn:Ez; [|discriminate].
    assert (k < length m) by (rewrite <- (upd_length k r m); apply nth_error_Some; congruence). rewrite upd_same in Ez by auto. injection Ez as <-.
    exfalso. simpl in E. injection E as E. apply (X i ltac:(congruence) a Ea). exact E.
  - rewrite !upd_other in E by congruence. apply N; [now rewrite map_length|]. now rewrite !nth_error_map.
Qed.
Lemma OI_step : forall es x e x', cexec start es = Some x -> OI x -> cstep x e = Some x' -> OI x'.
Proof.
  intros es x e x' H [O1 O2 O3] Hs.
  assert (LT : forall c, late (lch (fst x)) c -> late (lch (fst x')) c).
  { intros c Hl. destruct e as [e|d]; unfold CompModel.cstep in Hs.
    - destruct (lstep _ _ _ _ _ _ _ _ _ (fst x) e) as [s1|] eqn:E; [|discriminate]. injection Hs as <-. eapply late_lstep; eauto.
    - destruct (_ || _); [|discriminate]. now injection Hs as <-. }
  split.
  - intros c q it ch Hc. destruct e as [e|d]; unfold CompModel.cstep in Hs.
    + destruct (lstep _ _ _ _ _ _ _ _ _ (fst x) e) as [s1|] eqn:E; [|discriminate]. injection Hs as <-. cbn [fst snd] in *.
      destruct (lstep_cases _ _ _ _ _ _ _ _ _ _ _ _ E) as [(e' & H' & _)|[Ec _]]; [|rewrite Ec in Hc; eauto].
      destruct (eval_step _ _ _ _ _ _ _ _ c ch H' (ex_intro _ q (ex_intro _ it Hc))) as [(q' & it' & G)|(a1 & a2 & a3 & a4 & G)]; [eauto|].
      unfold mk_obj in G. destruct (mk_indiv _ _ _ _ _ _ _ _ _ _ _); try discriminate G. now injection G as <-.
    + destruct (_ || _); [|discriminate]. injection Hs as <-. eauto.
  - intros a Ha. destruct (cstep_pop x e x' Hs) as [E|(c & q & it & ch & r & -> & Hc & Hr & Hb & E)]; rewrite E in Ha.
    + destruct (O2 a Ha); auto.
    + apply in_upd in Ha. destruct Ha as [->|Ha]; [|destruct (O2 a Ha); auto].
      right. rewrite (ev_oid _ _ _ _ Hr). replace (n + c - n) with c by lia.
      unfold CompModel.cstep, lstep, step in Hs. rewrite Hc, Hr in Hs.
      assert (GL : forall z, match z with PHist | PRelT => True | _ => False end -> late (goto (lch (fst x)) c z) c).
      { intros z Hz. exists (mkChal q z). rewrite goto_cs, Nat.eqb_refl, Hc. split; auto. simpl. destruct z; tauto. }
      repeat (match goal with H : match match match ?x with _ => _ end with _ => _ end with _ => _ end = _ |- _ => destruct x end); injection Hs as <-; cbn [lch fst];
        try (apply GL; first [exact Logic.I|destruct xSSE; exact Logic.I]).
  - destruct (cstep_pop x e x' Hs) as [E|(c & q & it & ch & r & -> & Hc & Hr & Hb & E)]; rewrite E; auto.
    apply nd_upd; auto. intros C. apply in_map_iff in C. destruct C as (a & Ea & Ia). rewrite (ev_oid _ _ _ _ Hr) in Ea.
    destruct (O2 a Ia) as [C|(y & Hy & D)]; [lia|]. rewrite Ea in Hy. replace (n + c - n) with c in Hy by lia. rewrite Hc in Hy. injection Hy as <-. exact D.
Qed.
Lemma objects_oid : map oid (objects l) = seq 0 n.
Proof.
  unfold objects. rewrite map_map. generalize 0. induction l as [|a l0 IH]; intros k; simpl; auto. now rewrite IH.
Qed.
Lemma OI_exec : forall es2 es1 x x', cexec start es1 = Some x -> OI x -> cexec x es2 = Some x' -> OI x'.
Proof.
  induction es2 as [|e es2 IH]; intros es1 x x' H O0 H2; cbn [CompModel.cexec] in H2; [now injection H2 as <-|].
  destruct (cstep x e) as [x1|] eqn:E; [|discriminate]. eapply (IH (es1 ++ [e]) x1); eauto.
  - rewrite cexec_app, H. cbn [CompModel.cexec]. now rewrite E.
  - eapply OI_step; eauto.
Qed.
(** *** C110: an individual being evaluated is an object of its own: none of
    the population's and no other challenge's, and still the same object after
    its evaluation; the members are all different objects.  So a complaint
    concerns one individual *)
Theorem C110_own : forall es x, cexec start es = Some x ->
  NoDup (map oid (members x)) /\
  (forall c q it ch, nth_error (chals x) c = Some (mkChal q (PEval it ch)) ->
    ~ In (oid ch) (map oid (members x)) /\ ~ In (oid ch) (snd x) /\
    (forall r, evo c it ch = Some r -> oid r = oid ch) /\
    (forall c' q' it' ch', nth_error (chals x) c' = Some (mkChal q' (PEval it' ch')) -> oid ch' = oid ch -> c' = c)).
Proof.
  intros es x H.
  assert (O0 : OI x).
  { assert (S0 : chals start = [] /\ members start = objects l) by (unfold cstart, linit, loop_head, left; destruct (_ <? _); auto).
    destruct S0 as [S1 S2]. apply (OI_exec es [] start); auto. split; rewrite ?S1, ?S2.
    - intros c q it ch C. destruct c; discriminate C.
    - intros a Ha. left. apply (in_map oid) in Ha. rewrite objects_oid in Ha. apply in_seq in Ha. lia.
    - rewrite objects_oid. apply seq_NoDup. }
  destruct O0 as [O1 O2 O3]. split; auto. intros c q it ch Hc. assert (Ec := O1 c q it ch Hc).
  assert (NL : ~ late (lch (fst x)) c).
  { intros (y & Hy & D). rewrite Hc in Hy. injection Hy as <-. exact D. }
  repeat split.
  - intros C. apply in_map_iff in C. destruct C as (a & Ea & Ia). destruct (O2 a Ia) as [C|C]; [lia|].
    apply NL. replace c with (oid a - n) by lia. exact C.
  - intros C. destruct (cBI es x H _ C) as [D|D]; [lia|]. apply NL. replace c with (oid ch - n) by lia. exact D.
  - intros r Hr. rewrite (ev_oid _ _ _ _ Hr). lia.
  - intros c' q' it' ch' Hc' E. assert (Ec' := O1 c' q' it' ch' Hc'). lia.
Qed.

(** *** C110: a member complained about loses to any challenger with a finite SSE *)
Theorem C110_replaced : forall es x c q it ch r,
  cexec start es = Some x -> nth_error (chals x) c = Some (mkChal q (PEval it ch)) -> ChalModel.run (lch (fst x)) = true ->
  In (oid it) (snd x) -> evo c it ch = Some r -> fltb (ind_SSE (oind r)) finf = true ->
  exists x', cstep x (CL (LC (EEvalDone c))) = Some x' /\ nth_error (members x) (kt q) = Some it /\ nth_error (members x') (kt q) = Some r /\
    ~ In (oid r) (snd x').
Proof.
  intros es x c q it ch r H Hc Hrun Hi Hr Hf.
  assert (V := gi_val _ (cGI es x H) c _ it Hc eq_refl). simpl in V.
  assert (Fr := fresh es x c q it ch r H Hc Hr).
  assert (Eb : better_now (snd x) r it = true).
  { unfold better_now. rewrite (look_out _ _ Fr), (look_in _ _ Hi). unfold ind_lt. rewrite !float_SSE. exact Hf. }
  unfold CompModel.cstep, lstep, step. rewrite Hc, Hr, Hrun, Eb. eexists. split; [reflexivity|]. simpl. split; auto. split; auto.
  rewrite upd_same; auto. apply nth_error_Some. congruence.
Qed.
(** *** C110: complaints leave values alone: members stay in bounds *)
Theorem C110_in_bounds : okpm p -> (forall c, isfin (F c) = true) -> (forall i, In i l -> inbounds p (ivalues i)) ->
  forall es x a, cexec start es = Some x -> In a (members x) ->
  inbounds p (ivalues (oind a)) /\ ivalues (look (snd x) a) = ivalues (oind a).
Proof.
  intros OK FF H0 es x a H Ha. split; [|unfold look; now destruct (existsb _ _)].
  destruct (C110_simulates es x H) as [V HV].
  destruct (run_inv _ _ _ _ _ _ _ _ _ _ _ _ _ _ HV) as [[g Hg] _ _]. apply gexec_exec in Hg.
  assert (X : QI (fun i => inbounds p (ivalues (oind i))) (lch (fst x))).
  { eapply QI_exec; [| |split|exact Hg].
    - intros c b1 b2 b3 b4 ch A1 A2 A3 A4. unfold mk_obj, mk_indiv. destruct (passesConstraints _ _ _) as [[|]|]; try discriminate.
      intros [= <-]. simpl. apply challenger_in; auto.
    - intros c b ch r Hch. unfold ev_obj. destruct (ev_indiv _ _ _ _ _ _) as [i|] eqn:E; [|discriminate]. intros [= <-]. simpl.
      now rewrite (ev_values _ _ _ _ _ _ _ E).
    - cbn [init pop]. apply Forall_forall. intros b Hb. unfold objects in Hb. apply in_map_iff in Hb. destruct Hb as ([k i] & <- & Hb).
      apply in_combine_r in Hb. simpl. auto.
    - constructor. }
  destruct X as [X _]. rewrite Forall_forall in X. auto.
Qed.
End Complaints.
Print Assumptions C110_simulates.
Print Assumptions C110_targets.
Print Assumptions C110_ends.
Print Assumptions C110_slot.
Print Assumptions C110_best.
Print Assumptions C110_first.
Print Assumptions C110_best_of_all.
Print Assumptions C110_replaced.
Print Assumptions C110_own.
Print Assumptions C110_in_bounds.

(** ** Runs over five individuals with SSEs 7, 6, 5, 4 and 3; challenge [c] evaluates to [f c] *)
Definition cl5 : list indiv := [ex_ind 4 1 7; ex_ind (-5) 9 6; ex_ind 0 0 5; ex_ind 1 1 4; ex_ind 2 3 3].
Definition copts : opts := mkOpts 1 true 10 None true.
Definition cgo (f : nat -> f64) := cexec ex_pm [] (flit 1 (-1)) (fun _ => flit 1 (-1)) (fun _ => 0) (fun _ _ => flit 1 (-2))
  (fun c _ => EvSSE (Some (f c))) (fun _ => fone) (fun _ => mkEvpop (Some true) 5) (fun _ => false) true (fun _ => flit (-1) 0) c_up89 c_up87 copts 5.
Definition crun (l : list indiv) (f : nat -> f64) := cgo f (cstart copts l yfm ysc).
Definition csteps (q : quad) (c : nat) : list cevent := map CL (LReq q :: ysteps c).
(** challenges 0 to 3 *)
Definition cgen4 : list cevent := [CL LGo] ++ csteps (mkQuad 0 4 1 2) 0 ++ csteps (mkQuad 1 0 2 3) 1 ++ csteps (mkQuad 2 4 0 1) 2 ++ csteps (mkQuad 3 4 0 1) 3.
Definition cend : list cevent := map CL [LAll; LJoin [] (flit 1 (-1)) FOk; LFinish].
(** [f]: the fifth challenge finds 2, the others 9 *)
Definition cf (c : nat) : f64 := if c =? 4 then fofZ 2 else fofZ 9.
Definition cview (x : option (lst obj * list nat)) :=
  option_map (fun x => (lph (fst x), map oid (pop (lch (fst x))), snd x, map pdone (cs (lch (fst x))))) x.
(** the challenger of the last member takes its place and is complained about *)
Example C110_nonvacuous :
  cview (crun cl5 cf (cgen4 ++ csteps (mkQuad 4 3 1 2) 4 ++ [CBlack 9] ++ cend)) =
    Some (LEnd RMaxIter, [0; 1; 2; 3; 9], [9], [true; true; true; true; true]) /\
  cview (crun cl5 cf (CBlack 9 :: cgen4)) = None /\
  forallb (fun i => negb (isnan (ind_SSE i))) cl5 = true.
Proof. split; [|split]; vm_compute; reflexivity. Qed.
(** everything the hypotheses of C110_best and C110_replaced ask for: challenge 4
    is being evaluated, its target has been complained about and it will find 2 *)
Definition cmid : list cevent := CBlack 4 :: cgen4 ++ firstn 6 (csteps (mkQuad 4 3 1 2) 4).
Example C110_replaced_nonvacuous :
  match crun cl5 cf cmid with
  | Some x => match nth_error (cs (lch (fst x))) 4 with
              | Some (mkChal q (PEval it ch)) =>
                match ev_obj (fun c _ => EvSSE (Some (cf c))) (fun _ => fone) (fun _ => mkEvpop (Some true) 5) 5 4 it ch with
                | Some r => ChalModel.run (lch (fst x)) && (oid it =? 4) && existsb (Nat.eqb 4) (snd x) && fltb (ind_SSE (oind r)) finf &&
                    match cgo cf x (CL (LC (EEvalDone 4)) :: skipn 7 (csteps (mkQuad 4 3 1 2) 4) ++ cend) with Some _ => true | None => false end
                | None => false
                end
              | _ => false
              end
  | None => false
  end = true.
Proof. vm_compute. reflexivity. Qed.

(** the same state for C110_own: the members are 0 to 4 and the individual being evaluated is object 9 *)
Example C110_own_nonvacuous :
  match crun cl5 cf cmid with
  | Some x => match nth_error (cs (lch (fst x))) 4 with
              | Some (mkChal q (PEval it ch)) => Some (map oid (pop (lch (fst x))), oid it, oid ch)
              | _ => None
              end
  | None => None
  end = Some ([0; 1; 2; 3; 4], 4, 9).
Proof. vm_compute. reflexivity. Qed.

(** *** refuted: report.py:179-182 says that an individual complained about will
    never again be winner of a challenge: it still is against a challenger whose
    SSE is infinite ... *)
Theorem C110_winner_refuted : ~ forall f es x c q it ch x', crun cl5 f es = Some x ->
  nth_error (cs (lch (fst x))) c = Some (mkChal q (PEval it ch)) -> ChalModel.run (lch (fst x)) = true -> In (oid it) (snd x) ->
  cgo f x [CL (LC (EEvalDone c))] = Some x' -> ~ In (oid it) (map oid (pop (lch (fst x')))).
Proof.
  intros H. pose (f := fun _ : nat => finf).
  assert (V : match crun cl5 f cmid with
    | Some x => match nth_error (cs (lch (fst x))) 4 with
                | Some (mkChal q (PEval it ch)) =>
                  ChalModel.run (lch (fst x)) && existsb (Nat.eqb (oid it)) (snd x) &&
                  match cgo f x [CL (LC (EEvalDone 4))] with
                  | Some x' => existsb (Nat.eqb (oid it)) (map oid (pop (lch (fst x'))))
                  | None => false
                  end
                | _ => false
                end
    | None => false end = true) by (vm_compute; reflexivity).
  destruct (crun cl5 f cmid) as [x|] eqn:Ex; [|discriminate V].
  destruct (nth_error (cs (lch (fst x))) 4) as [[q [| | |it ch| | | |]]|] eqn:Ec; try discriminate V.
  destruct (cgo f x [CL (LC (EEvalDone 4))]) as [x'|] eqn:Ex'; [|rewrite !andb_false_r in V; discriminate V].
  rewrite !andb_true_iff in V. destruct V as ((V1 & V2) & V3).
  apply existsb_exists in V2, V3. destruct V2 as (k & Hk & Ek). destruct V3 as (k' & Hk' & Ek'). apply Nat.eqb_eq in Ek, Ek'. subst k k'.
  exact (H f cmid x 4 q it ch x' Ex Ec V1 Hk Ex' Hk').
Qed.
(** ... nor basis for new individuals: the values of a member complained about are
    used as before *)
Theorem C110_basis_refuted : ~ forall f es1 es2 x1 x2 c q it ib i0 i1 rel, crun cl5 f es1 = Some x1 -> cgo f x1 es2 = Some x2 ->
  length (cs (lch (fst x1))) <= c -> nth_error (cs (lch (fst x2))) c = Some (mkChal q (PRel it ib i0 i1 rel)) -> ~ In (oid ib) (snd x1).
Proof.
  intros H. pose (es2 := [CL LGo; CL (LReq (mkQuad 0 4 1 2)); CL (LC (EResume 0))]).
  assert (V : match crun cl5 cf [CBlack 4] with
    | Some x => match cgo cf x es2 with
                | Some x2 => match nth_error (cs (lch (fst x2))) 0 with
                             | Some (mkChal q (PRel it ib i0 i1 rel)) => existsb (Nat.eqb (oid ib)) (snd x) && (length (cs (lch (fst x))) <=? 0)
                             | _ => false
                             end
                | None => false
                end
    | None => false end = true) by (vm_compute; reflexivity).
  destruct (crun cl5 cf [CBlack 4]) as [x|] eqn:Ex; [|discriminate V].
  destruct (cgo cf x es2) as [x2|] eqn:Ex2; [|discriminate V].
  destruct (nth_error (cs (lch (fst x2))) 0) as [[q [| |it ib i0 i1 rel| | | | |]]|] eqn:Ec; try discriminate V.
  apply andb_true_iff in V. destruct V as [V1 V2]. apply Nat.leb_le in V2.
  apply existsb_exists in V1. destruct V1 as (k & Hk & Ek). apply Nat.eqb_eq in Ek. subst k.
  exact (H cf [CBlack 4] es2 x x2 0 q it ib i0 i1 rel Ex Ex2 V2 Ec Hk).
Qed.
(** refuted: the best individual that nobody has complained about is kept: a
    complaint about the one that took its place loses both *)
Theorem C110_kept_refuted : ~ forall f es x k i, crun cl5 f es = Some x -> lph (fst x) = LEnd RMaxIter ->
  nth_error cl5 k = Some i -> ~ In k (snd x) ->
  exists z, In z (pop (lch (fst x))) /\ ~ In (oid z) (snd x) /\ fleb (ind_SSE (oind z)) (ind_SSE i) = true.
Proof.
  intros H. pose (es := cgen4 ++ csteps (mkQuad 4 3 1 2) 4 ++ [CBlack 9] ++ cend).
  assert (V : match crun cl5 cf es with
    | Some x => match lph (fst x) with LEnd RMaxIter => true | _ => false end && negb (existsb (Nat.eqb 4) (snd x)) &&
                forallb (fun z => existsb (Nat.eqb (oid z)) (snd x) || negb (fleb (ind_SSE (oind z)) (ind_SSE (ex_ind 2 3 3)))) (pop (lch (fst x)))
    | None => false end = true) by (vm_compute; reflexivity).
  destruct (crun cl5 cf es) as [x|] eqn:Ex; [|discriminate V].
  rewrite !andb_true_iff in V. destruct V as ((V1 & V2) & V3).
  assert (Ep : lph (fst x) = LEnd RMaxIter) by (destruct (lph (fst x)) as [| | | |[]]; try discriminate V1; reflexivity).
  destruct (H cf es x 4 (ex_ind 2 3 3) Ex Ep eq_refl) as (z & Z1 & Z2 & Z3).
  - intros C. apply negb_true_iff in V2. apply not_true_iff_false in V2. apply V2. apply existsb_exists. exists 4. auto.
  - rewrite forallb_forall in V3. specialize (V3 z Z1). rewrite Z3, orb_false_r in V3.
    apply existsb_exists in V3. destruct V3 as (k & Hk & Ek). apply Nat.eqb_eq in Ek. congruence.
Qed.
(** refuted: C110_best_of_all for a population that has a member whose SSE is NaN:
    that one keeps out the best challenger ever seen *)
Definition cl5n : list indiv := mkIndiv [fofZ 4; fone] (Some fnan) None :: tl cl5.
Theorem C110_NaN_refuted : ~ forall f es1 es2 x1 x2 c q it ch r, crun cl5n f es1 = Some x1 ->
  nth_error (cs (lch (fst x1))) c = Some (mkChal q (PEval it ch)) -> ChalModel.run (lch (fst x1)) = true ->
  ev_obj (fun c _ => EvSSE (Some (f c))) (fun _ => fone) (fun _ => mkEvpop (Some true) 5) 5 c it ch = Some r -> isnan (ind_SSE (oind r)) = false ->
  cgo f x1 (CL (LC (EEvalDone c)) :: es2) = Some x2 -> (forall k, ~ In (CBlack k) (es1 ++ es2)) ->
  exists z, In z (pop (lch (fst x2))) /\ fleb (ind_SSE (oind z)) (ind_SSE (oind r)) = true.
Proof.
  intros H. pose (f := fun c : nat => if c =? 0 then fofZ 1 else fofZ 9).
  pose (es1 := CL LGo :: firstn 6 (csteps (mkQuad 0 4 1 2) 0)).
  assert (V : match crun cl5n f es1 with
    | Some x => match nth_error (cs (lch (fst x))) 0 with
                | Some (mkChal q (PEval it ch)) =>
                  match ev_obj (fun c _ => EvSSE (Some (f c))) (fun _ => fone) (fun _ => mkEvpop (Some true) 5) 5 0 it ch with
                  | Some r => ChalModel.run (lch (fst x)) && negb (isnan (ind_SSE (oind r))) &&
                      match cgo f x [CL (LC (EEvalDone 0))] with
                      | Some x2 => forallb (fun z => negb (fleb (ind_SSE (oind z)) (ind_SSE (oind r)))) (pop (lch (fst x2)))
                      | None => false
                      end
                  | None => false
                  end
                | _ => false
                end
    | None => false end = true) by (vm_compute; reflexivity).
  destruct (crun cl5n f es1) as [x|] eqn:Ex; [|discriminate V].
  destruct (nth_error (cs (lch (fst x))) 0) as [[q [| | |it ch| | | |]]|] eqn:Ec; try discriminate V.
  destruct (ev_obj _ _ _ 5 0 it ch) as [r|] eqn:Er; [|discriminate V].
  destruct (cgo f x [CL (LC (EEvalDone 0))]) as [x2|] eqn:Ex2; [|rewrite !andb_false_r in V; discriminate V].
  rewrite !andb_true_iff in V. destruct V as ((V1 & V2) & V3). apply negb_true_iff in V2.
  destruct (H f es1 [] x x2 0 q it ch r Ex Ec V1 Er V2 Ex2) as (z & Z1 & Z2).
  - intros k C. rewrite app_nil_r in C. unfold es1 in C. cbn [firstn csteps map ysteps] in C. repeat (destruct C as [C|C]; [discriminate C|]). exact C.
  - rewrite forallb_forall in V3. specialize (V3 z Z1). rewrite Z2 in V3. discriminate.
Qed.
Print Assumptions C110_winner_refuted.
Print Assumptions C110_basis_refuted.
Print Assumptions C110_kept_refuted.
Print Assumptions C110_NaN_refuted.
