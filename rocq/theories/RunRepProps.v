(** * Property C113: whole runs with their reporter *)
From Coq Require Import String List Bool Arith ZArith Lia Reals Lra Permutation.
From Verif Require Import Flt FltMore Py IndivModel IndivProofs ParamModel ParamProofs FManModel RunModel ChalModel ChalProofs ChalSerial ChalLive ChalInst ChalProps LoopModel LoopProofs LoopProps ParamProps CompModel CompProps EndProps.
From Verif Require Import RankModel RankProofs RepModel RepProofs RepProps RunRepModel.
Import ListNotations.
Local Open Scope nat_scope.

(** ** the reporter *)
Section Reporter.
Variable ncb : nat.
Lemma report_challenge_eq : forall s a b, report_challenge ncb s a b = if aborted s then s else rep_step ncb s (RCall a (Some b) false false).
Proof.
  intros s a b. unfold report_challenge, reported_to, pop_report. destruct (aborted s); auto. cbn [rep_step].
  destruct (rep_call ncb s a (Some b) false false) as [[[s' y] r] bo]. reflexivity.
Qed.
Lemma call_scheds : forall s i o np f, let s' := rep_step ncb s (RCall i o np f) in
  scheds (log s') = scheds (log s) \/ scheds (log s') = scheds (log s) ++ [i].
Proof.
  intros s i o np f s'. subst s'. cbn [rep_step].
  assert (N : scheds (log (new_best ncb s i f)) = scheds (log s) \/ scheds (log (new_best ncb s i f)) = scheds (log s) ++ [i]).
  { unfold new_best. cbv zeta.
    match goal with |- context [if ?c then set_best s (Some i) else s] => set (s1 := if c then set_best s (Some i) else s) end.
    assert (H1 : log s1 = log s) by (subst s1; match goal with |- context [if ?c then _ else _] => destruct c end; reflexivity).
    match goal with |- context [if ?c then run_callbacks _ _ _ _ else _] => destruct c end; [|now left; rewrite H1].
    right. rewrite runcb_scheds. cbn [set_lastrep log]. now rewrite H1. }
  unfold rep_call. destruct o as [o|].
  - destruct (msg_ratio (heap s o) (heap s i) "!"). destruct (match best s with None => _ | Some _ => _ end); auto.
  - destruct (negb _); auto. destruct (best s); auto. destruct (_ || _); auto.
Qed.
Lemma other_scheds : forall s e, (forall i o np f, e <> RCall i o np f) -> scheds (log (rep_step ncb s e)) = scheds (log s).
Proof.
  intros s [i o np f|m r|m ok|] H; cbn [rep_step]; [destruct (H i o np f eq_refl)| | |reflexivity].
  - destruct (nth_error (runs s) m) as [[i k pb []]|]; auto. destruct r.
    + assert (A := for_scheds ncb s i (S k) pb). destruct (for_loop ncb s i (S k) pb). exact A.
    + destruct (_ && _); [simpl; apply scheds_snoc; discriminate|].
      assert (A := for_scheds ncb s i (S k) pb). destruct (for_loop ncb s i (S k) pb). exact A.
    + assert (A := while_scheds ncb (set_aborted s true) (Some i) pb). destruct (while_loop ncb (set_aborted s true) (Some i) pb). exact A.
  - destruct (nth_error (runs s) m) as [[i k pb []]|]; auto. destruct ok; [|reflexivity].
    match goal with |- context [for_loop ncb ?t i (S k) pb] => set (s1 := t) end.
    assert (E2 : log s1 = log s) by (subst s1; match goal with |- context [if ?c then _ else _] => destruct c end; reflexivity).
    assert (A := for_scheds ncb s1 i (S k) pb). destruct (for_loop ncb s1 i (S k) pb). simpl in *. congruence.
Qed.
(** what a complaint does to the heap *)
Lemma complained_heap : forall s m ok, let s' := rep_step ncb s (RComplained m ok) in
  heap s' = heap s \/ ok = true /\ exists i k pb, nth_error (runs s) m = Some (mkRun i k pb PComplaint) /\ heap s' = heap (r_blacklist s i).
Proof.
  intros s m ok s'. subst s'. cbn [rep_step]. destruct (nth_error (runs s) m) as [[i k pb []]|]; auto. destruct ok; [|auto].
  right. split; auto. exists i, k, pb. split; auto.
  match goal with |- context [for_loop ncb ?t i (S k) pb] => set (s1 := t) end.
  assert (E2 : heap s1 = heap (r_blacklist s i)) by (subst s1; match goal with |- context [if ?c then _ else _] => destruct c end; reflexivity).
  destruct (for_frame ncb s1 i (S k) pb) as (A & _). destruct (for_loop ncb s1 i (S k) pb). simpl in *. congruence.
Qed.
Lemma step_aborted : forall s e, aborted (rep_step ncb s e) =
  match e with
  | RAbort => true
  | RDone m CbFails => match nth_error (runs s) m with Some (mkRun _ _ _ PCallback) => true | _ => aborted s end
  | _ => aborted s
  end.
Proof.
  intros s [i o np f|m r|m ok|]; cbn [rep_step].
  - apply call_frame.
  - destruct (nth_error (runs s) m) as [[i k pb []]|]; try (destruct r; reflexivity). destruct r.
    + destruct (for_frame ncb s i (S k) pb) as (_ & _ & _ & _ & A). destruct (for_loop ncb s i (S k) pb). exact A.
    + destruct (_ && _); [reflexivity|]. destruct (for_frame ncb s i (S k) pb) as (_ & _ & _ & _ & A). destruct (for_loop ncb s i (S k) pb). exact A.
    + destruct (while_frame ncb (set_aborted s true) (Some i) pb) as (_ & _ & _ & _ & A). destruct (while_loop ncb (set_aborted s true) (Some i) pb). exact A.
  - destruct (nth_error (runs s) m) as [[i k pb []]|]; auto. destruct ok; [|reflexivity].
    match goal with |- context [for_loop ncb ?t i (S k) pb] => set (s1 := t) end.
    assert (E2 : aborted s1 = aborted s) by (subst s1; match goal with |- context [if ?c then _ else _] => destruct c end; reflexivity).
    destruct (for_frame ncb s1 i (S k) pb) as (_ & _ & _ & _ & A). destruct (for_loop ncb s1 i (S k) pb). simpl in *. congruence.
  - reflexivity.
Qed.
(** an individual nobody has been told about may get its values *)
Lemma in_calls : forall l x, In x (calls l) -> exists pre y post, l = pre ++ ECall (fst x) (snd x) y :: post.
Proof.
  intros l x H. unfold calls in H. apply in_flat_map in H. destruct H as (e & H1 & H2). destruct e; try contradiction. destruct H2 as [<-|[]].
  apply in_split in H1. destruct H1 as (a & b & ->). exists a, sse, b. reflexivity.
Qed.
Lemma set_heap_inv : forall s k i, inv ncb s -> ~ In k (scheds (log s)) -> inv ncb (set_heap s k i).
Proof.
  intros s k i H NI. unfold inv in *. cbn [set_heap runs]. destruct (runs s) as [|r [|]]; auto.
  destruct H as [(gs & A & B & C & D & E & F & G) IP]. split; auto. cbn [set_heap log aborted sched heap option_map] in *.
  exists gs. do 3 (split; auto). split; [|auto]. intros Z. specialize (D Z). destruct (sched s); auto.
  destruct (last_opt (scheds (log s))) as [a|] eqn:La; auto. destruct D as [D|(b & Jb & D)]; [now left|].
  destruct (Nat.eq_dec ncb 0) as [N0|N0]; [now left|]. right. exists b. split; auto. destruct D as [D|D]; auto. right.
  assert (Ia : In a (scheds (log s))). { unfold last_opt in La. destruct (rev (scheds (log s))) as [|z zs] eqn:Er; [discriminate|]. injection La as ->. apply in_rev. rewrite Er. now left. }
  assert (Ib : In b (scheds (log s))).
  { assert (X : In (0, b) (calls (log s))).
    { rewrite A. simpl olist. rewrite app_nil_r. apply in_concat. exists (group (b, ncb)). split.
      - apply in_map. unfold last_opt in Jb. destruct (rev gs) as [|z zs] eqn:Er; [discriminate|]. injection Jb as ->. apply in_rev. rewrite Er. now left.
      - unfold group. cbn [fst snd]. apply in_map_iff. exists 0. split; auto. apply in_seq. lia. }
    destruct (in_calls _ _ X) as (pre & y & post & EL). cbn [fst snd] in EL. specialize (E _ _ _ _ _ EL). rewrite EL, scheds_app. apply in_or_app. now left. }
  destruct (Nat.eqb_spec a k) as [->|_]; [contradiction|]. destruct (Nat.eqb_spec b k) as [->|_]; [contradiction|]. exact D.
Qed.
(** a run dies by an exception of complaintCallback only *)
Lemma step_dead_only : forall s e r, (forall m, e <> RComplained m false) -> In r (runs (rep_step ncb s e)) -> In r (runs s) \/ r_ph r <> PDead.
Proof.
  assert (W : forall s ip pb r, snd (while_loop ncb s ip pb) = Some r -> r_ph r <> PDead).
  { intros s ip pb r. unfold while_loop, call_cb. destruct (aborted s); [discriminate|]. destruct (sched s); [|discriminate]. cbv zeta.
    destruct (_ && _); [discriminate|]. destruct (ncb =? 0); [discriminate|]. intros [= <-]. discriminate. }
  assert (FL : forall s i k pb r, snd (for_loop ncb s i k pb) = Some r -> r_ph r <> PDead).
  { intros s i k pb r. unfold for_loop. destruct (aborted s); [apply W|]. destruct (k <? ncb); [|apply W]. intros [= <-]. discriminate. }
  assert (RR : forall s s' m z r, runs s' = runs s -> (forall y, z = Some y -> r_ph y <> PDead) -> In r (runs (replace_run s' m z)) -> In r (runs s) \/ r_ph r <> PDead).
  { intros s s' m z r E Z H. unfold replace_run in H. cbn [set_runs runs] in H. rewrite E in H. apply in_app_or in H. destruct H as [H|H].
    - left. rewrite <- (firstn_skipn m (runs s)). apply in_or_app. now left.
    - apply in_app_or in H. destruct H as [H|H]; [destruct z as [y|]; [destruct H as [<-|[]]; auto|destruct H]|].
      left. rewrite <- (firstn_skipn (S m) (runs s)). apply in_or_app. now right. }
  assert (RC : forall s i pb r, In r (runs (run_callbacks ncb s i pb)) -> In r (runs s) \/ r_ph r <> PDead).
  { intros s i pb r. unfold run_callbacks. cbv zeta. destruct (inprog _); [now left|].
    match goal with |- context [while_loop ncb ?x ?y ?z] => assert (X := W x y z); destruct (while_frame ncb x y z) as (_ & _ & _ & D & _); destruct (while_loop ncb x y z) as [t [z'|]] end;
      cbn [fst snd set_runs runs] in *; rewrite D; cbn [set_inprog emit set_sched runs]; [|now left].
    intros H. apply in_app_or in H. destruct H as [H|[<-|[]]]; auto. }
  assert (NB : forall s i f r, In r (runs (new_best ncb s i f)) -> In r (runs s) \/ r_ph r <> PDead).
  { intros s i f r. unfold new_best. cbv zeta.
    match goal with |- context [if ?c then set_best s (Some i) else s] => set (s1 := if c then set_best s (Some i) else s) end.
    assert (H1 : runs s1 = runs s) by (subst s1; match goal with |- context [if ?c then _ else _] => destruct c end; reflexivity).
    match goal with |- context [if ?c then run_callbacks _ _ _ _ else _] => destruct c end; [|rewrite H1; now left].
    intros H. destruct (RC _ _ _ _ H) as [H'|H']; auto. left. cbn [set_lastrep runs] in H'. now rewrite H1 in H'. }
  intros s [i o np f|m r'|m ok|] r NC H; cbn [rep_step] in H.
  - unfold rep_call in H. destruct o as [o|].
    + destruct (msg_ratio (heap s o) (heap s i) "!"). destruct (match best s with None => _ | Some _ => _ end); [exact (NB _ _ _ _ H)|now left].
    + destruct (negb _); [now left|]. destruct (best s); [|exact (NB _ _ _ _ H)]. destruct (_ || _); [exact (NB _ _ _ _ H)|now left].
  - destruct (nth_error (runs s) m) as [[i k pb []]|]; try (now left). destruct r'.
    + assert (X := FL s i (S k) pb). destruct (for_frame ncb s i (S k) pb) as (_ & _ & _ & D & _). destruct (for_loop ncb s i (S k) pb). cbn [fst snd] in *. eapply RR; [exact D|exact X|exact H].
    + destruct (_ && _); [apply (RR s (emit s (EComplaint i)) m (Some (mkRun i k pb PComplaint)) r eq_refl); [intros y [= <-]; discriminate|exact H]|].
      assert (X := FL s i (S k) pb). destruct (for_frame ncb s i (S k) pb) as (_ & _ & _ & D & _). destruct (for_loop ncb s i (S k) pb). cbn [fst snd] in *. eapply RR; [exact D|exact X|exact H].
    + assert (X := W (set_aborted s true) (Some i) pb). destruct (while_frame ncb (set_aborted s true) (Some i) pb) as (_ & _ & _ & D & _). destruct (while_loop ncb (set_aborted s true) (Some i) pb). cbn [fst snd] in *. eapply RR; [exact D|exact X|exact H].
  - destruct (nth_error (runs s) m) as [[i k pb []]|]; try (now left). destruct ok; [|now destruct (NC m)].
    match type of H with context [for_loop ncb ?t i (S k) pb] => set (s1 := t) in * end.
    assert (E2 : runs s1 = runs s) by (subst s1; match goal with |- context [if ?c then _ else _] => destruct c end; reflexivity).
    assert (X := FL s1 i (S k) pb). destruct (for_frame ncb s1 i (S k) pb) as (_ & _ & _ & D & _). destruct (for_loop ncb s1 i (S k) pb). cbn [fst snd] in *. rewrite E2 in D. eapply RR; [exact D|exact X|exact H].
  - now left.
Qed.
Lemma done_last : forall s m c, lastrep (rep_step ncb s (RDone m c)) = lastrep s.
Proof.
  intros s m c. cbn [rep_step]. destruct (nth_error (runs s) m) as [[i k pb []]|]; auto. destruct c.
  - destruct (for_frame ncb s i (S k) pb) as (_ & _ & B & _). destruct (for_loop ncb s i (S k) pb). exact B.
  - destruct (_ && _); [reflexivity|]. destruct (for_frame ncb s i (S k) pb) as (_ & _ & B & _). destruct (for_loop ncb s i (S k) pb). exact B.
  - destruct (while_frame ncb (set_aborted s true) (Some i) pb) as (_ & _ & B & _). destruct (while_loop ncb (set_aborted s true) (Some i) pb). exact B.
Qed.
(** with nothing in progress, what was announced last was shown last, or its equal was *)
Lemma shown_last : forall s i, inv ncb s -> last_inv s -> runs s = [] -> aborted s = false -> lastrep s = Some i -> 0 < ncb ->
  exists pre j, called (log s) = pre ++ map (fun k => (k, j)) (seq 0 ncb) /\ (j = i \/ ind_eq (heap s i) (heap s j) = true).
Proof.
  intros s i I LI R A L N. unfold inv, after in I. rewrite R in I. unfold last_inv in LI. rewrite L in LI.
  destruct I as [(gs & CA & _ & _ & D & _ & _) _]. cbn [option_map olist] in *. rewrite app_nil_r in CA. specialize (D A). rewrite <- LI in D.
  destruct (sched s); [destruct D as [_ D]; congruence|]. destruct D as [D|(j & J & D)]; [lia|]. unfold last_opt in J. destruct (rev gs) as [|g gs'] eqn:E; [discriminate|].
  injection J as ->. apply (f_equal (@rev _)) in E. rewrite rev_involutive in E. simpl in E. subst gs.
  exists (concat (map group (rev gs'))), j. split; [|tauto]. unfold called. unfold calls in CA. rewrite CA. apply concat_snoc.
Qed.
(** a run that is suspended hands out an individual that was announced *)
Lemma run_scheduled : forall s m r, inv ncb s -> nth_error (runs s) m = Some r -> In (r_i r) (scheds (log s)).
Proof.
  intros s m r H Hm. unfold inv in H. destruct (runs s) as [|x [|]]; [destruct m; discriminate| |destruct H].
  destruct m as [|[|]]; try discriminate. injection Hm as ->. destruct H as [(gs & A & B & C & D & E & F & G) IP]. exact (G _ eq_refl).
Qed.
Lemma called_scheduled : forall s, inv ncb s -> forall k i, In (k, i) (called (log s)) -> In i (scheds (log s)).
Proof.
  intros s H k i C. assert (SF : sched_first (log s)).
  { unfold inv in H. destruct (runs s) as [|x [|]]; [| |destruct H]; destruct H as [(gs & A & B & C' & D & E & F & G) IP]; exact E. }
  unfold called in C. apply in_flat_map in C. destruct C as (e & He & Ce). destruct e; cbn in Ce; try contradiction. destruct Ce as [Ce|[]].
  apply in_split in He. destruct He as (pre & post & He). assert (X := SF _ _ _ _ _ He). rewrite He, scheds_app. apply in_or_app. left. congruence.
Qed.
End Reporter.

Lemma blacklist_twice : forall i, ind_blacklist (ind_blacklist i) = ind_blacklist i.
Proof. intros i. reflexivity. Qed.
Lemma blacklist_bool : forall i, ind_bool (ind_blacklist i) = true.
Proof. intros i. reflexivity. Qed.
Lemma eq_trans_ind : forall a b c, ind_eq a b = true -> ind_eq b c = true -> ind_eq a c = true.
Proof.
  assert (T : forall x y z, feqb x y = true -> feqb y z = true -> feqb x z = true).
  { intros x y z A B. apply feqb_spec in A, B. apply feqb_spec. destruct A as (A1 & A2 & A3), B as (B1 & B2 & B3). repeat split; auto. congruence. }
  intros a b c. unfold ind_eq. rewrite !andb_true_iff. intros [A1 A2] [B1 B2]. split; [eapply T; eauto|].
  revert A2 B2. generalize (ivalues a) (ivalues b) (ivalues c).
  induction l as [|x l IH]; intros [|y l1] [|z l2]; cbn [vals_eq]; auto; try discriminate.
  rewrite !andb_true_iff. intros [A B] [C D]. split; [eapply T; eauto|eapply IH; eauto].
Qed.

(** ** the run *)
Section Prun.
Context {I : Type}.
Variable mk : nat -> I -> I -> I -> I -> mkres I.
Variable ev : nat -> I -> I -> option I.
Variable better : I -> I -> bool.
Variable histcrash : nat -> bool.
Variable xSSE : bool.
Variable npsin : f64 -> f64.
Variables up0 up1 : f64.
Variable o : opts.
Notation step := (step mk ev better histcrash xSSE).
Notation lstep := (lstep mk ev better histcrash xSSE npsin up0 up1 o).
Lemma release1_prun : forall k (s : st I), prun (release1 k s) = prun s.
Proof. intros k s. unfold release1. destruct (nth_error (locks s) k) as [[|? [|? ?]]|]; reflexivity. Qed.
Lemma step_prun : forall s e s', step s e = Some s' -> prun s' = match e with EPopAbort => false | _ => prun s end.
Proof.
  intros s e s' H. destruct e as [q|c|c|c|c|c|c| | |m]; simpl in H.
  - destruct (_ && _); [|discriminate]. destruct (prun s) eqn:E; injection H as <-; auto.
  - repeat match type of H with match ?x with _ => _ end = _ => destruct x; try discriminate end; injection H as <-; reflexivity.
  - repeat match type of H with match ?x with _ => _ end = _ => destruct x; try discriminate end; injection H as <-; rewrite ?release1_prun; reflexivity.
  - repeat match type of H with match ?x with _ => _ end = _ => destruct x; try discriminate end; injection H as <-; reflexivity.
  - repeat match type of H with match ?x with _ => _ end = _ => destruct x; try discriminate end; injection H as <-; reflexivity.
  - repeat match type of H with match ?x with _ => _ end = _ => destruct x; try discriminate end; injection H as <-; reflexivity.
  - repeat match type of H with match ?x with _ => _ end = _ => destruct x; try discriminate end; injection H as <-; rewrite ?release1_prun; reflexivity.
  - injection H as <-; reflexivity.
  - injection H as <-; reflexivity.
  - destruct (nth_error (abq s) m); [|discriminate]. injection H as <-; rewrite ?release1_prun; reflexivity.
Qed.
Lemma gen_end_prun : forall g (s : lst I), prun (lch (gen_end npsin up0 up1 o g s)) = prun (lch s).
Proof.
  intros g s. unfold gen_end. destruct (generation _ _ _ _ _ _ _) as [[r l] w]. unfold loop_head, left.
  destruct w as [[]|]; try destruct (_ <? _); try destruct (r_run r); reflexivity.
Qed.
Lemma lstep_prun : forall s e s', lstep s e = Some s' -> prun (lch s') = match e with LC EPopAbort => false | _ => prun (lch s) end.
Proof.
  intros s e s' H. destruct e as [e| |q| | | |rirs u fo|]; unfold LoopModel.lstep in H.
  - destruct e as [q|c|c|c|c|c|c| | |m]; try discriminate;
      match type of H with match ?x with _ => _ end = _ => destruct x eqn:E; [|discriminate] end; injection H as <-; exact (step_prun _ _ _ E).
  - destruct (lph s); try discriminate. destruct (ChalModel.run _); injection H as <-; [auto|apply gen_end_prun].
  - destruct (lph s); try discriminate. destruct (_ && _); [|discriminate].
    destruct (step (lch s) (ERequest q)) as [c|] eqn:E; [|discriminate]. injection H as <-. exact (step_prun _ _ _ E).
  - destruct (lph s); try discriminate. destruct (_ <? _); [|discriminate]. injection H as <-; apply gen_end_prun.
  - destruct (lph s); try discriminate. destruct (_ && _); [|discriminate]. injection H as <-; auto.
  - destruct (lph s); try discriminate.
    + destruct (ChalModel.run _); [discriminate|]. injection H as <-; apply gen_end_prun.
    + destruct (existsb _ _); [injection H as <-; apply gen_end_prun|].
      destruct (ChalModel.run _); [discriminate|]. injection H as <-; apply gen_end_prun.
  - destruct (lph s); try discriminate. destruct (_ && _); [|discriminate]. injection H as <-; apply gen_end_prun.
  - destruct (lph s); try discriminate. injection H as <-. auto.
Qed.
Lemma eval_late : forall s c s', lstep s (LC (EEvalDone c)) = Some s' -> late (lch s') c.
Proof.
  intros s c s' E. simpl in E. destruct (nth_error (cs (lch s)) c) as [[q pp]|] eqn:Ec; [|discriminate].
  destruct pp as [| | |it ch| | | |]; try discriminate.
  assert (GL : forall z, match z with PHist | PRelT => True | _ => False end -> late (goto (lch s) c z) c).
  { intros z Hz. exists (mkChal q z). rewrite goto_cs, Nat.eqb_refl, Ec. split; auto. simpl. destruct z; tauto. }
  repeat (match goal with H : match match ?x with _ => _ end with _ => _ end = _ |- _ => destruct x end); injection E as <-; cbn [lch];
    try (apply GL; exact Logic.I).
  all: try (apply GL; destruct xSSE; exact Logic.I).
Qed.
Lemma hist_late : forall s c s', lstep s (LC (EHistDone c)) = Some s' -> late (lch s) c.
Proof.
  intros s c s' E. simpl in E. destruct (nth_error (cs (lch s)) c) as [[q pp]|] eqn:Ec; [|discriminate].
  destruct pp; try discriminate. exists (mkChal q PHist). split; auto. exact Logic.I.
Qed.
(** a challenger is being recorded only since its evaluation, and until the record is made *)
Lemma hist_from : forall s e s' c q, lstep s e = Some s' -> nth_error (cs (lch s')) c = Some (mkChal q PHist) ->
  (nth_error (cs (lch s)) c = Some (mkChal q PHist) /\ e <> LC (EHistDone c)) \/ e = LC (EEvalDone c).
Proof.
  assert (RL : forall k (s : st I) c q, nth_error (cs (release1 k s)) c = Some (mkChal q PHist) -> nth_error (cs s) c = Some (mkChal q PHist)).
  { intros k s c q E. rewrite release1_cs in E. destruct (nth_error (cs s) c) as [[q' pp]|]; [|discriminate].
    destruct (match tl (L s k) with [] => false | h :: _ => c =? h end); [|exact E]. destruct pp; cbn in E; try exact E; discriminate E. }
  assert (GO : forall (s : st I) d z c q, z <> PHist -> nth_error (cs (goto s d z)) c = Some (mkChal q PHist) -> nth_error (cs s) c = Some (mkChal q PHist) /\ c <> d).
  { intros s d z c q N E. rewrite goto_cs in E. destruct (Nat.eqb_spec c d) as [->|Nd]; auto. destruct (nth_error (cs s) d) as [x|]; [|discriminate]. cbn in E. congruence. }
  assert (ST : forall s e s' c q, step s e = Some s' -> nth_error (cs s') c = Some (mkChal q PHist) ->
    (nth_error (cs s) c = Some (mkChal q PHist) /\ e <> EHistDone c) \/ e = EEvalDone c).
  { intros s e s' c q H X. destruct e as [q'|d|d|d|d|d|d| | |m]; simpl in H.
    - left. split; [|discriminate]. assert (Y : exists y, nth_error (cs s ++ [mkChal q' (PWait y)]) c = Some (mkChal q PHist)).
      { destruct (_ && _); [|discriminate]. destruct (prun s); injection H as <-; eexists; exact X. }
      destruct Y as [y Y]. destruct (Nat.ltb_spec c (length (cs s))) as [Lc|Lc]; [rewrite nth_error_app1 in Y by lia; exact Y|].
      rewrite nth_error_app2 in Y by lia. destruct (c - length (cs s)) as [|[|]]; cbn in Y; congruence.
    - left. split; [|discriminate]. destruct (nth_error (cs s) d) as [[q' pp]|] eqn:E; [|discriminate]. destruct pp as [[|]| | | | | | |]; try discriminate.
      repeat (match goal with H : match ?x with _ => _ end = _ |- _ => destruct x end); injection H as <-; (apply GO in X; [tauto|discriminate]).
    - left. split; [|discriminate]. destruct (nth_error (cs s) d) as [[q' pp]|] eqn:E; [|discriminate]. destruct pp as [|[|? ?]|? ? ? ? [|? ?]| | | | |]; try discriminate; injection H as <-;
      try apply RL in X; (apply GO in X; [tauto|discriminate]).
    - left. split; [|discriminate]. destruct (nth_error (cs s) d) as [[q' pp]|] eqn:E; [|discriminate]. destruct pp as [| |? ? ? ? [|? ?]| | | | |]; try discriminate.
      destruct (mk _ _ _ _ _); injection H as <-; (apply GO in X; [tauto|discriminate]).
    - destruct (Nat.eq_dec c d) as [->|Nd]; [now right|]. left. split; [|discriminate].
      destruct (nth_error (cs s) d) as [[q' pp]|] eqn:E; [|discriminate]. destruct pp; try discriminate.
      assert (Y : exists z, nth_error (cs (goto s d z)) c = Some (mkChal q PHist)).
      { repeat (match goal with H : match ?x with _ => _ end = _ |- _ => destruct x end); injection H as <-; eexists; exact X. }
      destruct Y as [z Y]. rewrite goto_cs in Y. destruct (Nat.eqb_spec c d); [contradiction|exact Y].
    - left. destruct (nth_error (cs s) d) as [[q' pp]|] eqn:E; [|discriminate]. destruct pp; try discriminate. injection H as <-.
      apply GO in X; [|destruct (histcrash d); discriminate]. split; [tauto|]. intros C. injection C as ->. tauto.
    - left. split; [|discriminate]. destruct (nth_error (cs s) d) as [[q' pp]|] eqn:E; [|discriminate]. destruct pp; try discriminate. injection H as <-. apply RL in X.
      apply GO in X; [tauto|discriminate].
    - injection H as <-. left. split; [exact X|discriminate].
    - injection H as <-. left. split; [exact X|discriminate].
    - destruct (nth_error (abq s) m); [|discriminate]. injection H as <-. apply RL in X. left. split; [exact X|discriminate]. }
  intros s e s' c q H X.
  assert (HD : e <> LC (EHistDone c)).
  { intros ->. simpl in H. destruct (nth_error (cs (lch s)) c) as [[q' pp]|] eqn:E; [|discriminate]. destruct pp; try discriminate.
    injection H as <-. cbn [lch] in X. apply GO in X; [tauto|]. destruct (histcrash c); discriminate. }
  destruct (lstep_cases _ _ _ _ _ _ _ _ _ s e s' H) as [(e' & H' & D)|[E _]].
  - destruct (ST _ _ _ _ _ H' X) as [[A B]|A]; [left; auto|]. right. destruct D as [D|[q' D]]; congruence.
  - rewrite E in X. left. auto.
Qed.
End Prun.

Section Runs.
Variables (p : pm) (cons : list constr) (CR : f64) (F : nat -> f64) (j : nat -> nat) (u : nat -> nat -> f64).
Variables (func : nat -> option (list f64) -> evalres) (t : nat -> f64) (PS : nat -> evpop).
Variables (histcrash : nat -> bool) (xSSE : bool) (npsin : f64 -> f64) (up0 up1 : f64) (o : opts).
Variable l : list indiv.
Variables (fm : fman) (sc : score).
Variable ncb : nat.
Variable argsort : list f64 -> list nat.
Variable rid : nat -> nat.
Variable r0 : rep.
Notation n := (length l).
Notation mko := (mk_obj p cons CR F j u n).
Notation evo := (ev_obj func t PS n).
Notation cst := (cstart o l fm sc).
Notation cexec := (cexec p cons CR F j u func t PS histcrash xSSE npsin up0 up1 o n).
Notation lstep b := (lstep mko evo b histcrash xSSE npsin up0 up1 o).
Notation start := (rr_start o ncb argsort rid l fm sc r0).
Notation rr_step := (rr_step p cons CR F j u func t PS histcrash xSSE npsin up0 up1 o n ncb argsort rid).
Notation rr_exec := (rr_exec p cons CR F j u func t PS histcrash xSSE npsin up0 up1 o n ncb argsort rid).
Notation members x := (pop (lch (rl x))).

(** what setup leaves: different places for different objects, the members'
    individuals at theirs, all without fatal error; no object of the run announced
    before it exists; nothing aborted *)
Definition set_up : Prop :=
  (forall a b, rid a = rid b -> a = b) /\
  (forall k i, nth_error l k = Some i -> heap r0 (rid k) = i /\ ind_bool i = true) /\
  (forall k, In (ESched (rid k)) (log r0) -> k < n) /\
  aborted r0 = false /\ 0 < o_maxiter o /\
  exists h0 es0, r0 = rep_exec ncb (r_init h0) es0.
Hypothesis SU : set_up.
Hypothesis AS : is_argsort argsort.

Record RV (s : lst obj) (r : rep) (B : list nat) : Prop := mkRV {
  v_exec : exists es, cexec cst es = Some (s, B);
  v_heap : forall a, In a (pop (lch s)) -> heap r (rid (oid a)) = look B a;
  v_inv : inv ncb r;
  v_last : last_inv r;
  v_sched : forall k, In (rid k) (scheds (log r)) -> k < n \/ late (lch s) (k - n);
  v_known : forall a, In a (pop (lch s)) -> oid a < n \/ late (lch s) (oid a - n);
  v_bool : forall a, In a (pop (lch s)) -> ind_bool (oind a) = true;
  v_abort : aborted r = negb (prun (lch s))
}.

Lemma rid_inj : forall a b, rid a = rid b -> a = b. Proof. apply SU. Qed.
Lemma call_RV : forall s r B k o np f, RV s r B -> k < n \/ late (lch s) (k - n) -> RV s (rep_step ncb r (RCall (rid k) o np f)) B.
Proof.
  intros s r B k oo np f [A1 A2 A3 A4 A5 A6 A7 A8] K. constructor; auto.
  - intros a Ha. destruct (call_frame ncb r (rid k) oo np f) as (E & _ & _). cbn [rep_step]. rewrite E. auto.
  - now apply step_inv.
  - now apply step_last.
  - intros k' H'. destruct (call_scheds ncb r (rid k) oo np f) as [E|E]; rewrite E in H'; auto.
    apply in_app_or in H'. destruct H' as [H'|[H'|[]]]; auto. apply rid_inj in H'. now subst k'.
  - destruct (call_frame ncb r (rid k) oo np f) as (_ & _ & E). cbn [rep_step]. now rewrite E.
Qed.
Lemma challenge_RV : forall s r B k it, RV s r B -> k < n \/ late (lch s) (k - n) -> RV s (report_challenge ncb r (rid k) it) B.
Proof. intros s r B k it H K. rewrite report_challenge_eq. destruct (aborted r); auto. now apply call_RV. Qed.
Lemma best_member_in : forall h L b, best_member argsort rid h L = Some b -> In b L.
Proof. intros h L b. unfold best_member. destruct (argsort _); [discriminate|]. apply nth_error_In. Qed.
Lemma report_best_eq : forall r L b, best_member argsort rid (heap r) L = Some b ->
  report_best ncb argsort rid r L = if aborted r then r else rep_step ncb r (RCall (rid (oid b)) None true true).
Proof.
  intros r L b H. unfold report_best. rewrite H. unfold reported_to, pop_report. destruct (aborted r); auto. cbn [rep_step].
  destruct (rep_call ncb r (rid (oid b)) None true true) as [[[s' y] rr] bo]. reflexivity.
Qed.
Lemma best_RV : forall s r B, RV s r B -> RV s (report_best ncb argsort rid r (pop (lch s))) B.
Proof.
  intros s r B H. destruct (best_member argsort rid (heap r) (pop (lch s))) as [b|] eqn:E.
  - rewrite (report_best_eq _ _ _ E). destruct (aborted r); auto. apply call_RV; auto. apply (v_known s r B H). eapply best_member_in; eauto.
  - unfold report_best. now rewrite E.
Qed.
Lemma final_RV : forall a b r B, RV b r B -> RV b (final ncb argsort rid a b r) B.
Proof. intros a b r B H. unfold final. destruct (lph a); destruct (lph b); auto; now apply best_RV. Qed.

(** a step of the run as a step of CompModel.v *)
Lemma cexec_snoc : forall es x e x', cexec cst es = Some x -> cstep p cons CR F j u func t PS histcrash xSSE npsin up0 up1 o n x e = Some x' -> cexec cst (es ++ [e]) = Some x'.
Proof. intros es x e x' H1 H2. rewrite cexec_app, H1. cbn [CompModel.cexec]. now rewrite H2. Qed.
Lemma plain_RV : forall s r B e s', (forall c, e <> LC (EEvalDone c)) -> RV s r B -> lstep (better_heap rid (heap r)) s e = Some s' ->
  cexec (s, B) [CL e] = Some (s', B) /\ RV s' (match e with LC EPopAbort => rep_step ncb r RAbort | _ => r end) B.
Proof.
  intros s r B e s' NE [A1 A2 A3 A4 A5 A6 A7 A8] H.
  assert (H' : lstep (better_now B) s e = Some s').
  { rewrite <- H. apply lstep_ext. intros e' -> c q it ch x -> _ _. now destruct (NE c). }
  assert (CS : CompModel.cstep p cons CR F j u func t PS histcrash xSSE npsin up0 up1 o n (s, B) (CL e) = Some (s', B)) by (cbn [CompModel.cstep fst snd]; now rewrite H').
  assert (PP : pop (lch s') = pop (lch s)).
  { destruct (cstep_pop _ _ _ _ _ _ _ _ _ _ _ _ _ _ _ l _ _ _ CS) as [E|(c & q & it & ch & x & E & _)]; [exact E|]. injection E as ->. now destruct (NE c). }
  assert (LL : forall c, late (lch s) c -> late (lch s') c) by (intros c; eapply late_lstep; eauto).
  assert (AB := lstep_prun _ _ _ _ _ _ _ _ _ _ _ _ H).
  split; [cbn [CompModel.cexec]; now rewrite CS|].
  assert (XX : forall r', heap r' = heap r -> inv ncb r' -> last_inv r' -> scheds (log r') = scheds (log r) -> aborted r' = negb (prun (lch s')) -> RV s' r' B).
  { intros r' E1 E2 E3 E4 E5. constructor; auto.
    - destruct A1 as [es A1]. exists (es ++ [CL e]). eapply cexec_snoc; eauto.
    - intros a Ha. rewrite PP in Ha. rewrite E1. auto.
    - intros k Hk. rewrite E4 in Hk. destruct (A5 k Hk); auto.
    - intros a Ha. rewrite PP in Ha. destruct (A6 a Ha); auto.
    - intros a Ha. rewrite PP in Ha. auto. }
  assert (YY : RV s' (rep_step ncb r RAbort) B -> e = LC EPopAbort \/ prun (lch s') = prun (lch s) -> RV s' (match e with LC EPopAbort => rep_step ncb r RAbort | _ => r end) B).
  { intros Y [->|E]; [exact Y|]. assert (R : RV s' r B) by (apply XX; auto; congruence). destruct e as [[]| | | | | | |]; auto. }
  destruct e as [[]| | | | | | |]; try (apply XX; auto; congruence).
  apply XX; auto; [now apply step_inv|]. rewrite step_aborted. now rewrite AB.
Qed.
Lemma target_member : forall s r B c q it ch, RV s r B -> nth_error (cs (lch s)) c = Some (mkChal q (PEval it ch)) -> nth_error (pop (lch s)) (kt q) = Some it.
Proof.
  intros s r B c q it ch H Hc. destruct (v_exec s r B H) as [es He].
  exact (gi_val _ (cGI _ _ _ _ _ _ _ _ _ _ _ _ _ _ _ l fm sc es _ He) c _ it Hc eq_refl).
Qed.
Lemma not_late : forall (s : st obj) c q it ch, nth_error (cs s) c = Some (mkChal q (PEval it ch)) -> ~ late s c.
Proof. intros s c q it ch H (x & Hx & D). rewrite H in Hx. injection Hx as <-. exact D. Qed.
(** the end of an evaluation *)
Lemma eval_heap : forall s r tg c, heap (fst (eval_done func t PS xSSE n ncb rid s r tg c)) =
  match nth_error (cs (lch s)) c with
  | Some (mkChal q (PEval it ch)) => match evo c it ch with Some x => heap (set_heap r (rid (oid x)) (oind x)) | None => heap r end
  | _ => heap r
  end.
Proof.
  intros s r tg c. unfold eval_done. destruct (nth_error (cs (lch s)) c) as [[q pp]|]; auto. destruct pp as [| | |it ch| | | |]; auto.
  destruct (evo c it ch) as [x|]; auto. destruct (ChalModel.run (lch s)); auto.
  assert (R : forall b, heap (report_challenge ncb (set_heap r (rid (oid x)) (oind x)) (rid (oid x)) b) = heap (set_heap r (rid (oid x)) (oind x))).
  { intros b. rewrite report_challenge_eq. destruct (aborted _); auto. cbn [rep_step]. apply call_frame. }
  destruct (better_heap _ _ _ _); cbn [fst]; auto. destruct xSSE; cbn [fst]; auto.
Qed.
Lemma eval_RV : forall s r tg B c s', RV s r B -> lstep (better_at func t PS xSSE n ncb rid s r tg (LC (EEvalDone c))) s (LC (EEvalDone c)) = Some s' ->
  cexec (s, B) [CL (LC (EEvalDone c))] = Some (s', B) /\ RV s' (fst (eval_done func t PS xSSE n ncb rid s r tg c)) B.
Proof.
  intros s r tg B c s' V H. assert (V' := V). destruct V' as [A1 A2 A3 A4 A5 A6 A7 A8].
  destruct (nth_error (cs (lch s)) c) as [[q pp]|] eqn:Ec; [|simpl in H; rewrite Ec in H; discriminate].
  destruct pp as [| | |it ch| | | |]; try (simpl in H; rewrite Ec in H; discriminate).
  assert (NL := not_late _ _ _ _ _ Ec). assert (TM := target_member s r B c q it ch V Ec). assert (TI := nth_error_In _ _ TM).
  assert (NK : forall a, In a (pop (lch s)) -> oid a <> n + c).
  { intros a Ha E. destruct (A6 a Ha) as [K|K]; [lia|]. rewrite E in K. replace (n + c - n) with c in K by lia. contradiction. }
  assert (NS : ~ In (rid (n + c)) (scheds (log r))).
  { intros K. destruct (A5 _ K) as [K'|K']; [lia|]. replace (n + c - n) with c in K' by lia. contradiction. }
  assert (AG : forall x, evo c it ch = Some x -> better_heap rid (heap (set_heap r (rid (oid x)) (oind x))) x it = better_now B x it).
  { intros x Hx. unfold better_heap, better_now. cbn [set_heap heap]. rewrite Nat.eqb_refl.
    destruct A1 as [es A1]. rewrite (look_out B x (fresh _ _ _ _ _ _ _ _ _ _ _ _ _ _ _ l fm sc es (s, B) c q it ch x A1 Ec Hx)).
    destruct (Nat.eqb_spec (rid (oid it)) (rid (oid x))) as [E|_]; [|now rewrite (A2 it TI)].
    apply rid_inj in E. rewrite (ev_oid _ _ _ l _ _ _ _ Hx) in E. now destruct (NK it TI). }
  assert (H' : lstep (better_now B) s (LC (EEvalDone c)) = Some s').
  { rewrite <- H. apply lstep_ext. intros e' [= <-] c' q' it' ch' x [= <-] Ec' Hx. rewrite Ec in Ec'. injection Ec' as <- <- <-.
    unfold better_at, better_heap. rewrite eval_heap, Ec, Hx. symmetry. exact (AG x Hx). }
  assert (CS : CompModel.cstep p cons CR F j u func t PS histcrash xSSE npsin up0 up1 o n (s, B) (CL (LC (EEvalDone c))) = Some (s', B)) by (cbn [CompModel.cstep fst snd]; now rewrite H').
  assert (LL : forall d, late (lch s) d -> late (lch s') d) by (intros d; eapply late_lstep; eauto).
  assert (LC' : late (lch s') c) by (eapply eval_late; eauto).
  assert (AB := lstep_prun _ _ _ _ _ _ _ _ _ _ _ _ H'). cbn beta iota in AB.
  split; [cbn [CompModel.cexec]; now rewrite CS|].
  assert (KN : forall k, k < n \/ late (lch s) (k - n) -> k < n \/ late (lch s') (k - n)) by (intros k [K|K]; auto).
  assert (EX : exists es, cexec cst es = Some (s', B)) by (destruct A1 as [es A1]; exists (es ++ [CL (LC (EEvalDone c))]); eapply cexec_snoc; eauto).
  assert (Z : forall r1, (match evo c it ch with Some x => r1 = set_heap r (rid (oid x)) (oind x) | None => r1 = r end) -> RV s' r1 B).
  { intros r1 Hr. destruct (evo c it ch) as [x|] eqn:Hx.
    - assert (Ox := ev_oid _ _ _ l _ _ _ _ Hx). rewrite Ox in Hr. subst r1. constructor; auto.
      + intros a Ha. cbn [set_heap heap].
        destruct (cstep_pop _ _ _ _ _ _ _ _ _ _ _ _ _ _ _ l _ _ _ CS) as [E|(c' & q' & it' & ch' & y & E & Ec' & Hy & _ & E2)]; cbn [fst snd] in *.
        * rewrite E in Ha. destruct (Nat.eqb_spec (rid (oid a)) (rid (n + c))) as [K|_]; [|auto]. apply rid_inj in K. now destruct (NK a Ha).
        * injection E as <-. rewrite Ec in Ec'. injection Ec' as <- <- <-. rewrite Hx in Hy. injection Hy as <-. rewrite E2 in Ha.
          apply In_nth_error in Ha. destruct Ha as [k Ha]. destruct (Nat.eq_dec k (kt q)) as [->|Nk].
          -- rewrite upd_same in Ha by (apply nth_error_Some; congruence). injection Ha as <-. rewrite Ox, Nat.eqb_refl.
             destruct A1 as [es A1]. symmetry. apply look_out. exact (fresh _ _ _ _ _ _ _ _ _ _ _ _ _ _ _ l fm sc es (s, B) c q it ch x A1 Ec Hx).
          -- rewrite upd_other in Ha by congruence. apply nth_error_In in Ha.
             destruct (Nat.eqb_spec (rid (oid a)) (rid (n + c))) as [K|_]; [|auto]. apply rid_inj in K. now destruct (NK a Ha).
      + now apply set_heap_inv.
      + intros a Ha.
        destruct (cstep_pop _ _ _ _ _ _ _ _ _ _ _ _ _ _ _ l _ _ _ CS) as [E|(c' & q' & it' & ch' & y & E & Ec' & Hy & _ & E2)]; cbn [fst snd] in *; [rewrite E in Ha; auto|].
        injection E as <-. rewrite Ec in Ec'. injection Ec' as <- <- <-. rewrite Hx in Hy. injection Hy as <-. rewrite E2 in Ha.
        apply In_nth_error in Ha. destruct Ha as [k Ha]. destruct (Nat.eq_dec k (kt q)) as [->|Nk].
        * rewrite upd_same in Ha by (apply nth_error_Some; congruence). injection Ha as <-. right. rewrite Ox. now replace (n + c - n) with c by lia.
        * rewrite upd_other in Ha by congruence. apply nth_error_In in Ha. auto.
      + intros a Ha.
        destruct (cstep_pop _ _ _ _ _ _ _ _ _ _ _ _ _ _ _ l _ _ _ CS) as [E|(c' & q' & it' & ch' & y & E & Ec' & Hy & _ & E2)]; cbn [fst snd] in *; [rewrite E in Ha; auto|].
        injection E as <-. rewrite Ec in Ec'. injection Ec' as <- <- <-. rewrite Hx in Hy. injection Hy as <-. rewrite E2 in Ha.
        apply In_nth_error in Ha. destruct Ha as [k Ha]. destruct (Nat.eq_dec k (kt q)) as [->|Nk].
        * rewrite upd_same in Ha by (apply nth_error_Some; congruence). injection Ha as <-. unfold ev_obj, ev_indiv in Hx.
          match type of Hx with option_map _ (if ?b then _ else _) = _ => destruct b eqn:Eb; [|discriminate] end. injection Hx as <-. exact Eb.
        * rewrite upd_other in Ha by congruence. apply nth_error_In in Ha. auto.
      + cbn [set_heap aborted]. rewrite AB. exact A8.
    - subst r1.
      assert (PP : pop (lch s') = pop (lch s)).
      { destruct (cstep_pop _ _ _ _ _ _ _ _ _ _ _ _ _ _ _ l _ _ _ CS) as [E|(c' & q' & it' & ch' & y & E & Ec' & Hy & _ & E2)]; [exact E|].
        injection E as <-. cbn [fst] in Ec'. rewrite Ec in Ec'. injection Ec' as <- <- <-. congruence. }
      constructor; auto; try (intros a Ha; rewrite PP in Ha; auto; fail). now rewrite AB. }
  unfold eval_done. rewrite Ec. destruct (evo c it ch) as [x|] eqn:Hx; [|apply Z; auto]. assert (Ox := ev_oid _ _ _ l _ _ _ _ Hx).
  specialize (Z _ eq_refl). destruct (ChalModel.run (lch s)); [|exact Z].
  assert (Y : RV s' (report_challenge ncb (set_heap r (rid (oid x)) (oind x)) (rid (oid x)) (rid (oid it))) B).
  { rewrite Ox at 2. apply challenge_RV; auto. right. now replace (n + c - n) with c by lia. }
  destruct (better_heap _ _ _ _); cbn [fst]; auto. destruct xSSE; auto.
Qed.

Lemma swap_RV : forall s r r' B, RV s r B -> heap r' = heap r -> inv ncb r' -> last_inv r' -> scheds (log r') = scheds (log r) -> aborted r' = aborted r -> RV s r' B.
Proof.
  intros s r r' B [A1 A2 A3 A4 A5 A6 A7 A8] E1 E2 E3 E4 E5. constructor; auto.
  - intros a Ha. rewrite E1. auto.
  - intros k Hk. rewrite E4 in Hk. auto.
  - congruence.
Qed.
(** no run has been ended by an exception of complaintCallback *)
Definition dead_free (r : rep) : Prop := forall y, In y (runs r) -> r_ph y <> PDead.
(** the events of CompModel.v that an event stands for: a complaint that takes effect
    on a member or challenger, or on an individual that setup did not keep *)
Definition seen (e : rrevent) (ces : list cevent) : Prop :=
  match e with
  | RRun e => ces = [CL e]
  | RCb _ CbFails => ces = [CL (LC EPopAbort)]
  | RCb _ _ => ces = []
  | RComp _ ok => ces = [] \/ ok = true /\ exists k, ces = [CBlack k]
  end.
Lemma late_evaluated : forall (s : st obj) c, late s c -> evaluated s c = true.
Proof. intros s c (x & Hx & D). unfold evaluated. rewrite Hx. destruct (cpc x); tauto. Qed.
Lemma look_cons : forall k B a, look (k :: B) a = if oid a =? k then ind_blacklist (oind a) else look B a.
Proof. intros k B a. unfold look. cbn [existsb]. destruct (oid a =? k); reflexivity. Qed.
Lemma look_black : forall B a, ind_blacklist (look B a) = ind_blacklist (oind a).
Proof. intros B a. unfold look. destruct (existsb _ _); reflexivity. Qed.
Lemma run_RV : forall x e x' B, RV (rl x) (rr x) B -> rr_step x (RRun e) = Some x' ->
  exists r, rr x' = final ncb argsort rid (rl x) (rl x') r /\ cexec (rl x, B) [CL e] = Some (rl x', B) /\ RV (rl x') r B /\
    (dead_free (rr x) -> dead_free r) /\
    ((forall c, e <> LC (EEvalDone c)) -> (forall c, e <> LC (EHistDone c)) -> e <> LC EPopAbort -> r = rr x).
Proof.
  intros x e x' B V H. cbn [RunRepModel.rr_step] in H.
  destruct (waits e && negb (idle (rr x))); [discriminate|].
  match type of H with match ?y with _ => _ end = _ => destruct y as [s|] eqn:E; [|discriminate] end.
  assert (DC : forall r a b, dead_free r -> dead_free (report_challenge ncb r a b)).
  { intros r a b D. rewrite report_challenge_eq. destruct (aborted r); auto. intros y Hy. apply step_dead_only in Hy; [|intros; discriminate]. destruct Hy; auto. }
  assert (PL : forall e0, e = e0 -> (forall c, e0 <> LC (EEvalDone c)) -> (forall c, e0 <> LC (EHistDone c)) -> e0 <> LC EPopAbort ->
    better_at func t PS xSSE n ncb rid (rl x) (rr x) (rtg x) e0 = better_heap rid (heap (rr x)) ->
    Some (mkRR s (final ncb argsort rid (rl x) s (rr x)) (rtg x)) = Some x' ->
    exists r, rr x' = final ncb argsort rid (rl x) (rl x') r /\ cexec (rl x, B) [CL e] = Some (rl x', B) /\ RV (rl x') r B /\ (dead_free (rr x) -> dead_free r) /\ r = rr x).
  { intros e0 -> N1 N2 N3 BE HS. rewrite BE in E. edestruct plain_RV as [X Y]; [|exact V|exact E|]; [exact N1|]. injection HS as <-. exists (rr x).
    split; [reflexivity|]. split; [exact X|]. split; [|auto]. destruct e0 as [[]| | | | | | |]; try exact Y. now destruct N3. }
  assert (PK : (exists r, rr x' = final ncb argsort rid (rl x) (rl x') r /\ cexec (rl x, B) [CL e] = Some (rl x', B) /\ RV (rl x') r B /\ (dead_free (rr x) -> dead_free r) /\ r = rr x) ->
    exists r, rr x' = final ncb argsort rid (rl x) (rl x') r /\ cexec (rl x, B) [CL e] = Some (rl x', B) /\ RV (rl x') r B /\
    (dead_free (rr x) -> dead_free r) /\
    ((forall c, e <> LC (EEvalDone c)) -> (forall c, e <> LC (EHistDone c)) -> e <> LC EPopAbort -> r = rr x)).
  { intros (r & Z1 & Z2 & Z3 & Z4 & Z5). exists r. auto 10. }
  destruct e as [ev| |q| | | |rirs uu fo|];
    try (apply PK; eapply PL; [reflexivity|discriminate|discriminate|discriminate|reflexivity|exact H]).
  destruct ev as [q|c|c|c|c|c|c| | |m];
    try (apply PK; eapply PL; [reflexivity|discriminate|discriminate|discriminate|reflexivity|exact H]).
  - destruct (eval_RV _ _ _ _ _ _ V E) as [X Y]. assert (DD : dead_free (rr x) -> dead_free (fst (eval_done func t PS xSSE n ncb rid (rl x) (rr x) (rtg x) c))).
    { intros D. unfold eval_done. destruct (nth_error (cs (lch (rl x))) c) as [[q pp]|]; auto. destruct pp as [| | |it ch| | | |]; auto.
      destruct (evo c it ch) as [z|]; auto. destruct (ChalModel.run (lch (rl x))); auto.
      assert (D' : dead_free (set_heap (rr x) (rid (oid z)) (oind z))) by exact D.
      destruct (better_heap _ _ _ _); cbn [fst]; auto. destruct xSSE; cbn [fst]; auto. }
    destruct (eval_done func t PS xSSE n ncb rid (rl x) (rr x) (rtg x) c) as [r tg]. injection H as <-. exists r.
    split; [reflexivity|]. split; [exact X|]. split; [exact Y|]. split; [exact DD|]. intros C. now destruct (C c).
  - edestruct plain_RV as [X Y]; [|exact V|exact E|]; [discriminate|]. exists (hist_done histcrash n ncb rid (rr x) (rtg x) c). injection H as <-.
    split; [reflexivity|]. split; [exact X|]. split.
    + unfold hist_done. destruct (histcrash c); [exact Y|]. destruct (find _ _) as [[d it]|]; [|exact Y].
      apply challenge_RV; [exact Y|]. right. replace (n + c - n) with c by lia. eapply late_lstep; [exact E|]. eapply hist_late; exact E.
    + split; [|intros _ C; now destruct (C c)]. intros D. unfold hist_done. destruct (histcrash c); auto. destruct (find _ _) as [[d it]|]; auto.
  - edestruct plain_RV as [X Y]; [|exact V|exact E|]; [discriminate|]. exists (rep_step ncb (rr x) RAbort). injection H as <-.
    split; [reflexivity|]. split; [exact X|]. split; [exact Y|]. split; [intros D; exact D|]. intros _ _ C. now destruct C.
Qed.
Lemma step_RV : forall x e x' B, RV (rl x) (rr x) B -> rr_step x e = Some x' ->
  exists ces B', seen e ces /\ cexec (rl x, B) ces = Some (rl x', B') /\ RV (rl x') (rr x') B'.
Proof.
  intros x e x' B V H. destruct e as [e|m c|m ok].
  - destruct (run_RV x e x' B V H) as (r & E1 & E2 & E3 & _). exists [CL e], B. split; [reflexivity|]. split; [exact E2|]. rewrite E1. now apply final_RV.
  - cbn [RunRepModel.rr_step] in H. assert (SW : forall s r, RV s r B -> runs r = runs (rr x) -> heap r = heap (rr x) -> log r = log (rr x) -> aborted r = aborted (rep_step ncb (rr x) (RDone m c)) ->
                 RV s (rep_step ncb (rr x) (RDone m c)) B).
    { intros s r R E1 E2 E3 E4. apply (swap_RV s r); auto.
      - rewrite E2. apply step_best. exact Logic.I.
      - apply step_inv. apply V.
      - apply step_last. apply V.
      - rewrite E3. apply other_scheds. discriminate. }
    assert (A := step_aborted ncb (rr x) (RDone m c)). destruct c.
    + exists [], B. split; [reflexivity|]. injection H as <-. split; [reflexivity|]. apply (SW _ (rr x)); auto.
    + exists [], B. split; [reflexivity|]. injection H as <-. split; [reflexivity|]. apply (SW _ (rr x)); auto.
    + exists [CL (LC EPopAbort)], B. split; [reflexivity|].
      destruct (nth_error (runs (rr x)) m) as [[i k pb []]|] eqn:Em; try discriminate H.
      match type of H with match ?y with _ => _ end = _ => destruct y as [s|] eqn:E; [|discriminate] end. injection H as <-.
      edestruct plain_RV as [X Y]; [|exact V|exact E|]; [discriminate|]. split; [exact X|]. cbn [rl rr]. apply (SW _ _ Y); auto.
  - cbn [RunRepModel.rr_step] in H. match type of H with Some ?y = _ => assert (XE : x' = y) by congruence end. clear H. subst x'. cbn [rl rr].
    assert (SI := step_inv ncb (rr x) (RComplained m ok) (v_inv _ _ _ V)). assert (SL := step_last ncb (rr x) (RComplained m ok) (v_last _ _ _ V)).
    assert (SS := other_scheds ncb (rr x) (RComplained m ok) ltac:(intros; discriminate)). assert (SA := step_aborted ncb (rr x) (RComplained m ok)).
    destruct (complained_heap ncb (rr x) m ok) as [E|(-> & i & k & pb & Em & E)].
    { exists [], B. split; [now left|]. split; [reflexivity|]. eapply swap_RV; eauto. }
    assert (Si := run_scheduled ncb _ _ _ (v_inv _ _ _ V) Em). cbn [r_i] in Si.
    assert (V' := V). destruct V' as [A1 A2 A3 A4 A5 A6 A7 A8].
    destruct (in_dec Nat.eq_dec i (map rid (seq 0 (n + length (cs (lch (rl x))))))) as [Hi|Hi].
    + apply in_map_iff in Hi. destruct Hi as (d & <- & _). exists [CBlack d], (d :: B). split; [right; eauto|].
      assert (CS : CompModel.cstep p cons CR F j u func t PS histcrash xSSE npsin up0 up1 o n (rl x, B) (CBlack d) = Some (rl x, d :: B)).
      { cbn [CompModel.cstep fst snd]. replace ((d <? n) || evaluated (lch (rl x)) (d - n)) with true; auto. symmetry. apply orb_true_iff.
        destruct (A5 d Si) as [K|K]; [left; now apply Nat.ltb_lt|right; now apply late_evaluated]. }
      split; [cbn [CompModel.cexec]; now rewrite CS|]. cbn [rl rr]. constructor; auto.
      * destruct A1 as [es A1]. exists (es ++ [CBlack d]). eapply cexec_snoc; eauto.
      * intros a Ha. rewrite E. cbn [r_blacklist heap]. rewrite look_cons. destruct (Nat.eqb_spec (oid a) d) as [<-|Nd].
        -- rewrite Nat.eqb_refl, (A2 a Ha). apply look_black.
        -- destruct (Nat.eqb_spec (rid (oid a)) (rid d)) as [K|_]; [apply rid_inj in K; contradiction|]. auto.
      * intros k' H'. rewrite SS in H'. auto.
      * rewrite SA. exact A8.
    + exists [], B. split; [now left|]. split; [reflexivity|]. cbn [rl rr]. constructor; auto.
      * intros a Ha. rewrite E. cbn [r_blacklist heap]. destruct (Nat.eqb_spec (rid (oid a)) i) as [K|_]; [|auto].
        exfalso. apply Hi. apply in_map_iff. exists (oid a). split; auto. apply in_seq. destruct (A6 a Ha) as [L|(y & Hy & _)]; [lia|].
        assert (oid a - n < length (cs (lch (rl x)))) by (apply nth_error_Some; congruence). lia.
      * intros k' H'. rewrite SS in H'. auto.
      * rewrite SA. exact A8.
Qed.
Lemma rr_exec_app : forall es1 es2 x, rr_exec x (es1 ++ es2) = match rr_exec x es1 with Some x1 => rr_exec x1 es2 | None => None end.
Proof. induction es1 as [|e es1 IH]; simpl; intros; auto. destruct (rr_step x e); auto. Qed.
Lemma exec_RV : forall es x x' B, RV (rl x) (rr x) B -> rr_exec x es = Some x' ->
  exists css B', Forall2 seen es css /\ cexec (rl x, B) (concat css) = Some (rl x', B') /\ RV (rl x') (rr x') B'.
Proof.
  induction es as [|e es IH]; intros x x' B V H; cbn [RunRepModel.rr_exec] in H.
  - injection H as <-. exists [], B. split; [constructor|]. auto.
  - destruct (rr_step x e) as [x1|] eqn:E; [|discriminate]. destruct (step_RV _ _ _ _ V E) as (ces & B1 & S1 & X1 & V1).
    destruct (IH _ _ _ V1 H) as (css & B' & S2 & X2 & V2). exists (ces :: css), B'. split; [constructor; auto|]. split; auto.
    cbn [concat]. rewrite cexec_app, X1. exact X2.
Qed.
Lemma linit_lch : lch (linit o (objects l) fm sc) = init (objects l).
Proof. unfold linit, loop_head, left. destruct (_ <? _); auto. Qed.
Lemma start_RV : RV (rl start) (rr start) [].
Proof.
  destruct SU as (S1 & S2 & S3 & S4 & S5 & h0 & es0 & S6).
  assert (V : RV (linit o (objects l) fm sc) r0 []).
  { constructor.
    - exists []. reflexivity.
    - intros a Ha. rewrite linit_lch in Ha. cbn [init pop] in Ha. apply objects_nth in Ha. destruct Ha as (i & Hi & E). rewrite (proj1 (S2 _ _ Hi)), E. reflexivity.
    - rewrite S6. apply exec_inv. apply inv_init.
    - rewrite S6. apply exec_last. reflexivity.
    - intros k Hk. left. apply S3. unfold scheds in Hk. apply in_flat_map in Hk. destruct Hk as (e & K1 & K2). destruct e; try contradiction. destruct K2 as [->|[]]. exact K1.
    - intros a Ha. left. rewrite linit_lch in Ha. cbn [init pop] in Ha. apply objects_nth in Ha. destruct Ha as (i & Hi & _). apply nth_error_Some. congruence.
    - intros a Ha. rewrite linit_lch in Ha. cbn [init pop] in Ha. apply objects_nth in Ha. destruct Ha as (i & Hi & E). rewrite E. exact (proj2 (S2 _ _ Hi)).
    - rewrite S4, linit_lch. reflexivity. }
  unfold rr_start. cbn [rl rr]. replace (objects l) with (pop (lch (linit o (objects l) fm sc))) at 2 by (rewrite linit_lch; reflexivity).
  apply best_RV. exact V.
Qed.

(** *** C113: with the callbacks as they are, the run is one of CompModel.v, whose
    complaints are those of the callbacks about members and challengers; the
    reporter's heap has the members as they are; the reporter and the population
    agree about being aborted *)
Theorem C113_complaints : forall es x, rr_exec start es = Some x ->
  exists css B, Forall2 seen es css /\ cexec cst (concat css) = Some (rl x, B) /\
    (forall a, In a (members x) -> heap (rr x) (rid (oid a)) = look B a) /\
    aborted (rr x) = negb (prun (lch (rl x))).
Proof.
  intros es x H. destruct (exec_RV _ _ _ _ start_RV H) as (css & B & S & X & V). exists css, B. split; auto. split; auto. split; apply V.
Qed.

(** ** the end of the run *)
Lemma RV_phinv : forall s r B, RV s r B -> length (pop (lch s)) = n /\ forall w, lph s = LRep w -> all_done (lch s).
Proof.
  intros s r B V. destruct (v_exec _ _ _ V) as [es He]. destruct (C110_simulates _ _ _ _ _ _ _ _ _ _ _ _ _ _ _ _ _ _ _ _ He) as [VV HV].
  destruct (run_inv _ _ _ _ _ _ _ _ _ _ _ _ _ _ HV) as [L1 L2 L3]. cbn [fst] in *. split.
  - rewrite <- (objects_length l). eapply reach_len. exact L1.
  - intros w Hw. unfold phinv in L3. rewrite Hw in L3. destruct L3 as (_ & _ & g & _ & _ & _ & L3). apply L3.
Qed.
Lemma best_member_min : forall h L, L <> [] -> exists z, best_member argsort rid h L = Some z /\ In z L /\
  forall a, In a L -> ford (ind_SSE (h (rid (oid z)))) (ind_SSE (h (rid (oid a)))).
Proof.
  intros h L NL. unfold best_member. set (v := map (fun a => ind_SSE (h (rid (oid a)))) L). destruct (AS v) as [PE SO]. destruct (argsort v) as [|k K] eqn:EK.
  - apply Permutation_nil in PE. unfold v in PE. rewrite map_length in PE. destruct L; [congruence|discriminate].
  - assert (Hk : k < length L). { assert (X : In k (seq 0 (length v))) by (eapply Permutation_in; [exact PE|now left]). apply in_seq in X. unfold v in X. rewrite map_length in X. lia. }
    destruct (nth_error L k) as [z|] eqn:Ez; [|apply nth_error_None in Ez; lia]. exists z. split; auto. split; [eapply nth_error_In; eauto|].
    intros a Ha. apply In_nth_error in Ha. destruct Ha as [m Hm].
    assert (X : In m (k :: K)). { eapply Permutation_in; [apply Permutation_sym; exact PE|]. apply in_seq. unfold v. rewrite map_length. assert (m < length L) by (apply nth_error_Some; congruence). lia. }
    apply In_nth_error in X. destruct X as [i Hi]. destruct i as [|i].
    + injection Hi as ->. rewrite Ez in Hm. injection Hm as ->. apply ford_refl.
    + apply (SO 0 (S i) k m _ _ ltac:(lia) eq_refl Hi).
      * unfold v. now rewrite (map_nth_error _ _ _ Ez).
      * unfold v. now rewrite (map_nth_error _ _ _ Hm).
Qed.
(** the one announced last is the best of [L], or its equal *)
Definition announced (r : rep) (L : list obj) : Prop :=
  exists z i, In z L /\ (forall a, In a L -> ford (ind_SSE (heap r (rid (oid z)))) (ind_SSE (heap r (rid (oid a))))) /\
    lastrep r = Some i /\ (i = rid (oid z) \/ ind_eq (heap r (rid (oid z))) (heap r i) = true).
Lemma report_announced : forall s r B, RV s r B -> aborted r = false -> l <> [] -> announced (report_best ncb argsort rid r (pop (lch s))) (pop (lch s)).
Proof.
  intros s r B V A NL. destruct (RV_phinv _ _ _ V) as [LP _].
  assert (NP : pop (lch s) <> []) by (intros C; rewrite C in LP; destruct l; [congruence|discriminate]).
  destruct (best_member_min (heap r) _ NP) as (z & Z1 & Z2 & Z3). rewrite (report_best_eq _ _ _ Z1), A.
  set (r' := rep_step ncb r (RCall (rid (oid z)) None true true)).
  assert (HH : heap r' = heap r) by (destruct (call_frame ncb r (rid (oid z)) None true true) as (E & _); exact E).
  assert (BZ : ind_bool (heap r (rid (oid z))) = true).
  { rewrite (v_heap _ _ _ V z Z2). unfold look. destruct (existsb _ _); [apply blacklist_bool|apply (v_bool _ _ _ V z Z2)]. }
  destruct (C45_when ncb r (rid (oid z)) None true true) as [W1 W2]. fold r' in W1, W2.
  destruct (match lastrep r with Some i => ind_bool (heap r i) && ind_eq (heap r (rid (oid z))) (heap r i) | None => false end) eqn:R.
  - destruct (lastrep r) as [i|] eqn:Li; [|discriminate]. apply andb_true_iff in R. destruct R as [R1 R2].
    exists z, i. rewrite HH. split; auto. split; auto. split; auto. apply W2. intros (_ & C & _). apply C. exists i. auto.
  - exists z, (rid (oid z)). rewrite HH. split; auto. split; auto. split; auto. apply W1. split; [auto|]. split; [|left; auto].
    intros (i & Li & I1 & I2). rewrite Li, I1, I2 in R. discriminate.
Qed.
Lemma in_final : forall x e x' B w, RV (rl x) (rr x) B -> rr_step x (RRun e) = Some x' -> lph (rl x) = LRep w ->
  e = LFinish /\ rl x' = mkL (set_run false (lch (rl x))) (LEnd w) (lkg (rl x)) (stop_run (lrs (rl x))) (ltr (rl x)) /\ rr x' = rr x \/
  lph (rl x') = LRep w /\ members x' = members x /\ (rr x' = rr x \/ aborted (rr x') = true).
Proof.
  intros x e x' B w V H L. assert (AD := proj2 (RV_phinv _ _ _ V) w L).
  destruct (run_RV x e x' B V H) as (r & E1 & E2 & E3 & E4 & E5). unfold final in E1. rewrite L in E1. subst r.
  cbn [CompModel.cexec] in E2. match type of E2 with match ?y with _ => _ end = _ => destruct y as [cx|] eqn:CS; [|discriminate] end. injection E2 as ->.
  assert (CS' := CS). cbn [CompModel.cstep fst snd] in CS'. match type of CS' with match ?y with _ => _ end = _ => destruct y as [s1|] eqn:LS; [|discriminate] end. injection CS' as ->.
  destruct e as [ev| |q| | | |rirs uu fo|]; try (cbn [LoopModel.lstep] in LS; rewrite L in LS; discriminate LS).
  - right.
    assert (NE : forall c, ev <> EEvalDone c).
    { intros c ->. simpl in LS. destruct (nth_error (cs (lch (rl x))) c) as [[q pp]|] eqn:Ec; [|discriminate]. assert (X := AD _ _ Ec). simpl in X. subst pp. discriminate. }
    assert (NH : forall c, ev <> EHistDone c).
    { intros c ->. simpl in LS. destruct (nth_error (cs (lch (rl x))) c) as [[q pp]|] eqn:Ec; [|discriminate]. assert (X := AD _ _ Ec). simpl in X. subst pp. discriminate. }
    split; [|split].
    + rewrite <- L. cbn [LoopModel.lstep] in LS. destruct ev; try discriminate LS;
        match type of LS with match ?y with _ => _ end = _ => destruct y; [|discriminate] end; injection LS as <-; reflexivity.
    + destruct (cstep_pop _ _ _ _ _ _ _ _ _ _ _ _ _ _ _ l _ _ _ CS) as [E|(c & q & it & ch & y & E & _)]; [exact E|]. injection E as ->. now destruct (NE c).
    + destruct (match ev with EPopAbort => true | _ => false end) eqn:EP.
      * destruct ev; try discriminate EP. right. rewrite (v_abort _ _ _ E3). cbn [LoopModel.lstep] in LS. cbn [ChalModel.step] in LS. injection LS as <-. reflexivity.
      * left. apply E5; [intros c [= C]; now destruct (NE c)|intros c [= C]; now destruct (NH c)|intros [= ->]; discriminate EP].
  - left. split; auto. split; [cbn [LoopModel.lstep] in LS; rewrite L in LS; now injection LS as <-|]. apply E5; discriminate.
Qed.
Lemma announced_ext : forall r r' L, heap r' = heap r -> lastrep r' = lastrep r -> announced r L -> announced r' L.
Proof. intros r r' L E1 E2 (z & i & A). exists z, i. rewrite E1, E2. exact A. Qed.
Definition FI (x : rrun) : Prop := forall w, lph (rl x) = LRep w -> aborted (rr x) = false -> announced (rr x) (members x).
Lemma step_FI : forall x e x' B, l <> [] -> RV (rl x) (rr x) B -> FI x -> rr_step x e = Some x' ->
  (forall m, e = RComp m true -> forall w, lph (rl x) <> LRep w) -> FI x'.
Proof.
  intros x e x' B NL V I H NC w L A. destruct e as [e|m c|m ok].
  - destruct (match lph (rl x) with LRep _ => true | _ => false end) eqn:EL.
    + destruct (lph (rl x)) as [| | |w0|] eqn:L0; try discriminate EL.
      destruct (in_final _ _ _ _ _ V H L0) as [(-> & E1 & E2)|(E1 & E2 & E3)]; [rewrite E1 in L; discriminate L|].
      destruct E3 as [E3|E3]; [|congruence]. rewrite E2, E3. eapply I; eauto. now rewrite <- E3.
    + destruct (run_RV x e x' B V H) as (r & E1 & E2 & E3 & _). unfold final in E1. rewrite L in E1.
      assert (E1' : rr x' = report_best ncb argsort rid r (members x')) by (destruct (lph (rl x)); try discriminate EL; exact E1).
      rewrite E1'. eapply report_announced; eauto. rewrite <- A, E1'.
      unfold report_best, reported_to, pop_report. destruct (best_member argsort rid (heap r) (members x')) as [b|]; auto. destruct (aborted r) eqn:Ar; [now rewrite Ar|].
      destruct (rep_call ncb r (rid (oid b)) None true true) as [[[s' y] rr'] bo] eqn:RC. assert (CF := call_frame ncb r (rid (oid b)) None true true). rewrite RC in CF. cbn [fst] in CF. destruct CF as (_ & _ & CF). congruence.
  - cbn [RunRepModel.rr_step] in H.
    assert (X : forall s, x' = mkRR s (rep_step ncb (rr x) (RDone m c)) (rtg x) -> aborted (rr x) = false -> lph s = lph (rl x) -> pop (lch s) = members x -> announced (rr x') (members x')).
    { intros s -> Ax Ls Ps. cbn [rl rr] in *. rewrite Ps. apply (announced_ext (rr x)).
      - apply step_best. exact Logic.I.
      - apply done_last.
      - eapply I; [rewrite <- Ls; exact L|exact Ax]. }
    assert (SA := step_aborted ncb (rr x) (RDone m c)). destruct c.
    + injection H as <-. cbn [rr rl] in A, L. apply (X (rl x)); auto. now rewrite <- SA.
    + injection H as <-. cbn [rr rl] in A, L. apply (X (rl x)); auto. now rewrite <- SA.
    + exfalso. destruct (nth_error (runs (rr x)) m) as [[i k pb []]|]; try discriminate H.
      match type of H with match ?y with _ => _ end = _ => destruct y as [s|]; [|discriminate] end.
      assert (XE : x' = mkRR s (rep_step ncb (rr x) (RDone m CbFails)) (rtg x)) by congruence. rewrite XE in A. cbn [rr] in A. rewrite SA in A. discriminate A.
  - cbn [RunRepModel.rr_step] in H. match type of H with Some ?y = _ => assert (XE : x' = y) by congruence end. clear H. subst x'. cbn [rl rr] in *.
    destruct ok; [now destruct (NC m eq_refl w)|]. rewrite step_aborted in A. apply (announced_ext (rr x)); [| |eapply I; eauto]; cbn [rep_step]; destruct (nth_error (runs (rr x)) m) as [[i k pb []]|]; reflexivity.
Qed.
Lemma step_dead_free : forall x e x' B, RV (rl x) (rr x) B -> dead_free (rr x) -> rr_step x e = Some x' -> (forall m, e <> RComp m false) -> dead_free (rr x').
Proof.
  intros x e x' B V D H NC.
  assert (X : forall e0 r, (forall m, e0 <> RComplained m false) -> dead_free r -> dead_free (rep_step ncb r e0)).
  { intros e0 r N0 D0 y Hy. apply step_dead_only in Hy; auto. destruct Hy; auto. }
  destruct e as [e|m c|m ok].
  - destruct (run_RV x e x' B V H) as (r & E1 & _ & _ & E4 & _). rewrite E1. specialize (E4 D). unfold final.
    assert (Y : dead_free (report_best ncb argsort rid r (members x'))).
    { destruct (best_member argsort rid (heap r) (members x')) as [b|] eqn:E; [|unfold report_best; now rewrite E]. rewrite (report_best_eq _ _ _ E).
      destruct (aborted r); auto. apply X; auto. intros; discriminate. }
    destruct (lph (rl x)); destruct (lph (rl x')); auto.
  - cbn [RunRepModel.rr_step] in H. destruct c.
    + match type of H with Some ?y = _ => assert (XE : x' = y) by congruence end. rewrite XE. cbn [rr]. apply X; auto. intros; discriminate.
    + match type of H with Some ?y = _ => assert (XE : x' = y) by congruence end. rewrite XE. cbn [rr]. apply X; auto. intros; discriminate.
    + destruct (nth_error (runs (rr x)) m) as [[i k pb []]|]; try discriminate H.
      match type of H with match ?y with _ => _ end = _ => destruct y as [s|]; [|discriminate] end.
      match type of H with Some ?y = _ => assert (XE : x' = y) by congruence end. rewrite XE. cbn [rr]. apply X; auto. intros; discriminate.
  - cbn [RunRepModel.rr_step] in H. match type of H with Some ?y = _ => assert (XE : x' = y) by congruence end. clear H. subst x'. cbn [rr].
    apply X; auto. intros m' [= -> ->]. now destruct (NC m').
Qed.
Lemma exec_FI : forall es x, rr_exec start es = Some x -> l <> [] -> dead_free r0 -> (forall m, ~ In (RComp m false) es) ->
  (forall es1 m es2 y, es = es1 ++ RComp m true :: es2 -> rr_exec start es1 = Some y -> forall w, lph (rl y) <> LRep w) ->
  FI x /\ dead_free (rr x).
Proof.
  induction es as [|e es IH] using rev_ind; intros x H NL D ND NC.
  - injection H as <-. split.
    + intros w L. exfalso. cbn [rr_start rl] in L. unfold linit, loop_head in L. destruct SU as (_ & _ & _ & _ & M & _). apply Nat.ltb_lt in M. rewrite M in L. discriminate L.
    + cbn [rr_start rr]. destruct (best_member argsort rid (heap r0) (objects l)) as [b|] eqn:E; [|unfold report_best; now rewrite E]. rewrite (report_best_eq _ _ _ E).
      destruct (aborted r0); auto. intros y Hy. apply step_dead_only in Hy; [|intros; discriminate]. destruct Hy; auto.
  - rewrite rr_exec_app in H. destruct (rr_exec start es) as [x1|] eqn:E; [|discriminate]. cbn [RunRepModel.rr_exec] in H. destruct (rr_step x1 e) as [x2|] eqn:E2; [|discriminate]. injection H as ->.
    destruct (IH x1 eq_refl NL D) as [I1 D1].
    { intros m C. apply (ND m). apply in_or_app. now left. }
    { intros es1 m es2 y -> Hy. apply (NC es1 m (es2 ++ [e]) y); auto. now rewrite <- app_assoc. }
    destruct (exec_RV _ _ _ _ start_RV E) as (css & B & _ & _ & V). split.
    + eapply step_FI; eauto. intros m ->. apply (NC es m [] x1); auto.
    + eapply step_dead_free; eauto. intros m ->. apply (ND m). apply in_or_app. right. now left.
Qed.

(** *** C113: when a run that nobody stopped is over, the last thing that the callbacks
    were shown - all of them, in their order - is the best member of the final
    population or one with the same values and SSE.  Unless the complaintCallback
    raised, or a complaint came when the final report had been made *)
Theorem C113_final : forall es x x', rr_exec start es = Some x -> rr_step x (RRun LFinish) = Some x' ->
  aborted (rr x') = false -> dead_free r0 -> (forall m, ~ In (RComp m false) es) ->
  (forall es1 m es2 y, es = es1 ++ RComp m true :: es2 -> rr_exec start es1 = Some y -> forall w, lph (rl y) <> LRep w) ->
  l <> [] -> 0 < ncb ->
  let sse a := ind_SSE (heap (rr x') (rid (oid a))) in
  exists z pre k, In z (members x') /\ (forall a, In a (members x') -> isnan (sse a) = true \/ fleb (sse z) (sse a) = true) /\
    called (log (rr x')) = pre ++ map (fun c => (c, k)) (seq 0 ncb) /\
    (k = rid (oid z) \/ ind_eq (heap (rr x') (rid (oid z))) (heap (rr x') k) = true).
Proof.
  intros es x x' H Hs A D ND NC NL Nc sse. destruct (exec_FI es x H NL D ND NC) as [I DF].
  destruct (exec_RV _ _ _ _ start_RV H) as (css & B & _ & _ & V).
  assert (LP : exists w, lph (rl x) = LRep w /\ idle (rr x) = true).
  { cbn [RunRepModel.rr_step] in Hs. destruct (idle (rr x)) eqn:Ei; [|discriminate Hs]. cbn [waits negb andb] in Hs.
    cbn [LoopModel.lstep] in Hs. destruct (lph (rl x)) as [| | |w|]; try discriminate Hs. eauto. }
  destruct LP as (w & LP & ID). destruct (in_final _ _ _ _ _ V Hs LP) as [(_ & E1 & E2)|(E1 & _)].
  2:{ exfalso. cbn [RunRepModel.rr_step] in Hs. rewrite ID in Hs. cbn [waits negb andb] in Hs. cbn [LoopModel.lstep] in Hs. rewrite LP in Hs. injection Hs as <-. discriminate E1. }
  assert (EM : members x' = members x) by (rewrite E1; reflexivity).
  rewrite E2 in A. destruct (I w LP A) as (z & i & Z1 & Z2 & Z3 & Z4). unfold idle in ID. rewrite A in ID. cbn [orb] in ID.
  assert (RN : runs (rr x) = []).
  { destruct (runs (rr x)) as [|y ys] eqn:Ry; auto. exfalso. cbn [forallb] in ID. apply andb_true_iff in ID. destruct ID as [ID _].
    apply (DF y); [rewrite Ry; now left|]. destruct (r_ph y); try discriminate ID. reflexivity. }
  destruct (shown_last ncb (rr x) i (v_inv _ _ _ V) (v_last _ _ _ V) RN A Z3 Nc) as (pre & k & K1 & K2).
  exists z, pre, k. unfold sse. rewrite EM, E2. split; auto. split; auto. split; auto.
  destruct Z4 as [Z4|Z4], K2 as [->|K2]; auto; right.
  - now rewrite <- Z4.
  - eapply eq_trans_ind; eauto.
Qed.

(** *** C113: if there is no complaint and no member to start with has NaN, that is the
    best of everything: of the population the run began with and of the challengers
    that have been evaluated *)
Lemma noblack : forall ces x x', cexec x ces = Some x' -> (forall k, ~ In (CBlack k) ces) -> snd x' = snd x.
Proof.
  induction ces as [|e ces IH]; intros x x' H N; cbn [CompModel.cexec] in H; [now injection H as <-|].
  destruct (CompModel.cstep _ _ _ _ _ _ _ _ _ _ _ _ _ _ _ _ x e) as [x1|] eqn:E; [|discriminate]. rewrite (IH _ _ H) by (intros k C; apply (N k); now right).
  destruct e as [e|k]; [|destruct (N k); now left]. cbn [CompModel.cstep] in E. destruct (LoopModel.lstep _ _ _ _ _ _ _ _ _ _ _); [|discriminate]. now injection E as <-.
Qed.
Lemma seen_noblack : forall es css, Forall2 seen es css -> (forall m, ~ In (RComp m true) es) -> forall k, ~ In (CBlack k) (concat css).
Proof.
  induction 1 as [|e ces es css S1 S2 IH]; intros N k; cbn [concat]; [auto|]. intros C. apply in_app_or in C. destruct C as [C|C].
  - destruct e as [e|m c|m ok]; cbn [seen] in S1.
    + subst ces. destruct C as [C|[]]. discriminate.
    + destruct c; subst ces; [destruct C|destruct C|destruct C as [C|[]]; discriminate].
    + destruct S1 as [->|(-> & d & ->)]; [destruct C|]. apply (N m). now left.
  - apply (IH (fun m C' => N m (or_intror C')) k C).
Qed.
Theorem C113_best_of_all : (forall i, In i l -> isnan (ind_SSE i) = false) ->
  forall es x x', rr_exec start es = Some x -> rr_step x (RRun LFinish) = Some x' ->
  aborted (rr x') = false -> dead_free r0 -> (forall m ok, ~ In (RComp m ok) es) -> l <> [] -> 0 < ncb ->
  exists z pre k, In z (members x') /\ heap (rr x') (rid (oid z)) = oind z /\
    (forall i, In i l -> fleb (ind_SSE (oind z)) (ind_SSE i) = true) /\
    (forall es1 es2 x1 c q it ch r, es = es1 ++ RRun (LC (EEvalDone c)) :: es2 -> rr_exec start es1 = Some x1 ->
       nth_error (cs (lch (rl x1))) c = Some (mkChal q (PEval it ch)) -> ChalModel.run (lch (rl x1)) = true ->
       evo c it ch = Some r -> isnan (ind_SSE (oind r)) = false -> fleb (ind_SSE (oind z)) (ind_SSE (oind r)) = true) /\
    called (log (rr x')) = pre ++ map (fun c => (c, k)) (seq 0 ncb) /\
    (k = rid (oid z) \/ ind_eq (oind z) (heap (rr x') k) = true).
Proof.
  intros NN es x x' H Hs A D NC NL Nc.
  destruct (C113_final es x x' H Hs A D) as (z & pre & k & Z1 & Z2 & Z3 & Z4); auto.
  { intros es1 m es2 y -> _. exfalso. apply (NC m true). apply in_or_app. right. now left. }
  assert (HF : rr_exec start (es ++ [RRun LFinish]) = Some x') by (rewrite rr_exec_app, H; cbn [RunRepModel.rr_exec]; now rewrite Hs).
  assert (NC' : forall m, ~ In (RComp m true) (es ++ [RRun LFinish])).
  { intros m C. apply in_app_or in C. destruct C as [C|[C|[]]]; [exact (NC _ _ C)|discriminate]. }
  assert (KEY : forall css B, Forall2 seen (es ++ [RRun LFinish]) css -> cexec cst (concat css) = Some (rl x', B) -> RV (rl x') (rr x') B ->
     (forall a, In a (members x') -> heap (rr x') (rid (oid a)) = oind a) /\ forall b, In b (members x') -> isnan (ind_SSE (oind b)) = false -> fleb (ind_SSE (oind z)) (ind_SSE (oind b)) = true).
  { intros css B S X V. assert (EB := noblack _ _ _ X (seen_noblack _ _ S NC')). cbn [snd cstart] in EB. subst B.
    assert (HH : forall a, In a (members x') -> heap (rr x') (rid (oid a)) = oind a) by (intros a Ha; rewrite (v_heap _ _ _ V a Ha); reflexivity).
    split; [exact HH|]. intros b Hb Nb. destruct (Z2 b Hb) as [C|C]; rewrite !HH in C by auto; [congruence|exact C]. }
  destruct (exec_RV _ _ _ _ start_RV HF) as (css & B & S & X & V). destruct (KEY css B S X V) as [HH ZB].
  exists z, pre, k. split; auto. split; [now apply HH|]. split.
  { intros i Hi. destruct (C111_best _ _ _ _ _ _ _ _ _ _ _ _ _ _ _ l fm sc NL NN _ _ X (seen_noblack _ _ S NC')) as (z' & Y1 & _ & Y2 & _).
    assert (Nz : isnan (ind_SSE (oind z')) = false) by (specialize (Y2 i Hi); apply fleb_spec in Y2; tauto).
    eapply fleb_trans; [apply ZB; eauto|apply Y2; auto]. }
  split; [|split; [exact Z3|]; rewrite (HH z Z1) in Z4; exact Z4].
  intros es1 es2 x1 c q it ch r -> H1 Hc Hr Ev Nr. rewrite <- app_assoc in HF. cbn [app] in HF. rewrite rr_exec_app, H1 in HF. cbn [RunRepModel.rr_exec] in HF.
  destruct (rr_step x1 (RRun (LC (EEvalDone c)))) as [x2|] eqn:E2; [|discriminate].
  destruct (exec_RV _ _ _ _ start_RV H1) as (css1 & B1 & S1 & X1 & V1). destruct (step_RV _ _ _ _ V1 E2) as (ces & B2 & S2 & X2 & V2). cbn [seen] in S2. subst ces.
  destruct (exec_RV _ _ _ _ V2 HF) as (css3 & B3 & S3 & X3 & V3).
  assert (SX : Forall2 seen ((es1 ++ RRun (LC (EEvalDone c)) :: es2) ++ [RRun LFinish]) (css1 ++ [CL (LC (EEvalDone c))] :: css3)).
  { rewrite <- app_assoc. cbn [app]. apply Forall2_app; auto. constructor; auto. reflexivity. }
  assert (XX : cexec cst (concat (css1 ++ [CL (LC (EEvalDone c))] :: css3)) = Some (rl x', B3)).
  { rewrite concat_app. rewrite cexec_app. replace (cexec cst (concat css1)) with (Some (rl x1, B1)) by (symmetry; exact X1). cbn [concat]. rewrite cexec_app, X2. exact X3. }
  destruct (KEY _ _ SX XX V3) as [_ ZB'].
  destruct (C111_best _ _ _ _ _ _ _ _ _ _ _ _ _ _ _ l fm sc NL NN _ _ XX (seen_noblack _ _ SX NC')) as (z' & Y1 & _ & _ & Y2). cbn [fst] in Y1, Y2.
  assert (Y3 : fleb (ind_SSE (oind z')) (ind_SSE (oind r)) = true).
  { eapply (Y2 (concat css1) (concat css3) (rl x1, B1)); eauto. rewrite concat_app. reflexivity. }
  assert (Nz : isnan (ind_SSE (oind z')) = false) by (apply fleb_spec in Y3; tauto).
  eapply fleb_trans; [apply (ZB' z' Y1 Nz)|exact Y3].
Qed.

(** *** C113: and then nothing more is shown or changed *)
Lemma RV_over : forall s r B w, RV s r B -> lph s = LEnd w -> w <> RShutdown -> all_done (lch s).
Proof.
  intros s r B w V Hw NS. destruct (v_exec _ _ _ V) as [es He]. destruct (C110_simulates _ _ _ _ _ _ _ _ _ _ _ _ _ _ _ _ _ _ _ _ He) as [VV HV].
  destruct (run_inv _ _ _ _ _ _ _ _ _ _ _ _ _ _ HV) as [L1 L2 L3]. cbn [fst] in *. unfold phinv in L3. rewrite Hw in L3.
  destruct w; try (now destruct NS); destruct L3 as (g & _ & _ & _ & L3); apply L3.
Qed.
Lemma exec_dead_free : forall es x, rr_exec start es = Some x -> dead_free r0 -> (forall m, ~ In (RComp m false) es) -> dead_free (rr x).
Proof.
  induction es as [|e es IH] using rev_ind; intros x H D ND.
  - injection H as <-. cbn [rr_start rr]. destruct (best_member argsort rid (heap r0) (objects l)) as [b|] eqn:E; [|unfold report_best; now rewrite E]. rewrite (report_best_eq _ _ _ E).
    destruct (aborted r0); auto. intros y Hy. apply step_dead_only in Hy; [|intros; discriminate]. destruct Hy; auto.
  - rewrite rr_exec_app in H. destruct (rr_exec start es) as [x1|] eqn:E; [|discriminate]. cbn [RunRepModel.rr_exec] in H. destruct (rr_step x1 e) as [x2|] eqn:E2; [|discriminate]. injection H as ->.
    assert (D1 := IH x1 eq_refl D (fun m C => ND m (in_or_app _ _ _ (or_introl C)))).
    destruct (exec_RV _ _ _ _ start_RV E) as (css & B & _ & _ & V).
    eapply step_dead_free; eauto. intros m ->. apply (ND m). apply in_or_app. right. now left.
Qed.
Lemma over_step : forall x e x' B w, RV (rl x) (rr x) B -> lph (rl x) = LEnd w -> w <> RShutdown -> runs (rr x) = [] -> rr_step x e = Some x' ->
  lph (rl x') = LEnd w /\ runs (rr x') = [] /\ log (rr x') = log (rr x) /\ heap (rr x') = heap (rr x) /\ members x' = members x.
Proof.
  intros x e x' B w V L NS RN H. assert (AD := RV_over _ _ _ _ V L NS). destruct e as [e|m c|m ok].
  - destruct (run_RV x e x' B V H) as (r & E1 & E2 & E3 & E4 & E5).
    cbn [CompModel.cexec] in E2. match type of E2 with match ?y with _ => _ end = _ => destruct y as [cx|] eqn:CS; [|discriminate] end. injection E2 as ->.
    assert (CS' := CS). cbn [CompModel.cstep fst snd] in CS'. match type of CS' with match ?y with _ => _ end = _ => destruct y as [s1|] eqn:LS; [|discriminate] end. injection CS' as ->.
    destruct e as [ev| |q| | | |rirs uu fo|]; try (cbn [LoopModel.lstep] in LS; rewrite L in LS; discriminate LS).
    assert (NE : forall c, ev <> EEvalDone c).
    { intros c ->. simpl in LS. destruct (nth_error (cs (lch (rl x))) c) as [[q pp]|] eqn:Ec; [|discriminate]. assert (X := AD _ _ Ec). simpl in X. subst pp. discriminate. }
    assert (NH : forall c, ev <> EHistDone c).
    { intros c ->. simpl in LS. destruct (nth_error (cs (lch (rl x))) c) as [[q pp]|] eqn:Ec; [|discriminate]. assert (X := AD _ _ Ec). simpl in X. subst pp. discriminate. }
    assert (L' : lph (rl x') = LEnd w).
    { rewrite <- L. cbn [LoopModel.lstep] in LS. destruct ev; try discriminate LS;
        match type of LS with match ?y with _ => _ end = _ => destruct y; [|discriminate] end; injection LS as <-; reflexivity. }
    assert (PP : members x' = members x).
    { destruct (cstep_pop _ _ _ _ _ _ _ _ _ _ _ _ _ _ _ l _ _ _ CS) as [E|(c & q & it & ch & y & E & _)]; [exact E|]. injection E as ->. now destruct (NE c). }
    assert (RR : rr x' = rr x \/ rr x' = rep_step ncb (rr x) RAbort).
    { destruct (match ev with EPopAbort => true | _ => false end) eqn:EP.
      - right. destruct ev; try discriminate EP. cbn [RunRepModel.rr_step waits andb] in H. match type of H with match ?y with _ => _ end = _ => destruct y as [s|]; [|discriminate] end.
        assert (XE : x' = mkRR s (final ncb argsort rid (rl x) s (rep_step ncb (rr x) RAbort)) (rtg x)) by congruence. rewrite XE in L' |- *. cbn [rl rr] in *. unfold final. rewrite L, L'. reflexivity.
      - left. rewrite E5 in E1; [|intros c [= C]; now destruct (NE c)|intros c [= C]; now destruct (NH c)|intros [= ->]; discriminate EP].
        unfold final in E1. rewrite L, L' in E1. exact E1. }
    split; auto. destruct RR as [->| ->]; auto.
  - cbn [RunRepModel.rr_step rep_step] in H. rewrite RN in H. assert (Nm : nth_error (@nil RepModel.run) m = None) by (destruct m; reflexivity). rewrite Nm in H. destruct c; try discriminate H; injection H as <-; cbn [rl rr]; auto.
  - cbn [RunRepModel.rr_step rep_step] in H. rewrite RN in H. assert (Nm : nth_error (@nil RepModel.run) m = None) by (destruct m; reflexivity). rewrite Nm in H. injection H as <-; cbn [rl rr]; auto.
Qed.
Theorem C113_over : forall es x x' es' y, rr_exec start es = Some x -> rr_step x (RRun LFinish) = Some x' ->
  aborted (rr x') = false -> dead_free r0 -> (forall m, ~ In (RComp m false) es) -> rr_exec x' es' = Some y ->
  log (rr y) = log (rr x') /\ heap (rr y) = heap (rr x') /\ members y = members x'.
Proof.
  intros es x x' es' y H Hs A D ND H'. assert (DF := exec_dead_free es x H D ND).
  destruct (exec_RV _ _ _ _ start_RV H) as (css & B & _ & _ & V).
  assert (LP : exists w, lph (rl x) = LRep w /\ idle (rr x) = true).
  { cbn [RunRepModel.rr_step] in Hs. destruct (idle (rr x)) eqn:Ei; [|discriminate Hs]. cbn [waits negb andb] in Hs.
    cbn [LoopModel.lstep] in Hs. destruct (lph (rl x)) as [| | |w|]; try discriminate Hs. eauto. }
  destruct LP as (w & LP & ID). destruct (in_final _ _ _ _ _ V Hs LP) as [(_ & E1 & E2)|(E1 & _)].
  2:{ exfalso. cbn [RunRepModel.rr_step] in Hs. rewrite ID in Hs. cbn [waits negb andb] in Hs. cbn [LoopModel.lstep] in Hs. rewrite LP in Hs. injection Hs as <-. discriminate E1. }
  assert (NS : w <> RShutdown).
  { intros ->. destruct (v_exec _ _ _ V) as [es0 He]. destruct (C110_simulates _ _ _ _ _ _ _ _ _ _ _ _ _ _ _ _ _ _ _ _ He) as [VV HV].
    destruct (run_inv _ _ _ _ _ _ _ _ _ _ _ _ _ _ HV) as [_ _ L3]. cbn [fst] in *. unfold phinv in L3. rewrite LP in L3. destruct L3 as (_ & [C|C] & _); discriminate C. }
  rewrite E2 in A. unfold idle in ID. rewrite A in ID. cbn [orb] in ID.
  assert (RN : runs (rr x') = []).
  { rewrite E2. destruct (runs (rr x)) as [|z zs] eqn:Ry; auto. exfalso. cbn [forallb] in ID. apply andb_true_iff in ID. destruct ID as [ID _].
    apply (DF z); [rewrite Ry; now left|]. destruct (r_ph z); try discriminate ID. reflexivity. }
  destruct (step_RV _ _ _ _ V Hs) as (ces & B' & _ & _ & V').
  assert (LE : lph (rl x') = LEnd w) by (rewrite E1; reflexivity).
  clear - V' LE NS RN H' SU. revert x' B' V' LE RN H'. induction es' as [|e es' IH]; intros x' B' V' LE RN H'; cbn [RunRepModel.rr_exec] in H'.
  - injection H' as <-. auto.
  - destruct (rr_step x' e) as [x1|] eqn:E; [|discriminate]. destruct (over_step _ _ _ _ _ V' LE NS RN E) as (Q1 & Q2 & Q3 & Q4 & Q5).
    destruct (step_RV _ _ _ _ V' E) as (ces & B2 & _ & _ & V2). destruct (IH x1 B2 V2 Q1 Q2 H') as (W1 & W2 & W3). rewrite W1, W2, W3. auto.
Qed.
(** *** C113: the reporter's best: as long as nobody complains and nothing is
    aborted it is at least as good as every member, at any time of the run *)
Definition knows (s : st obj) (r : rep) (L : list obj) : Prop := aborted r = false ->
  exists b, best r = Some b /\ isnan (ind_SSE (heap r b)) = false /\ (forall k, b = rid k -> k < n \/ late s (k - n)) /\
    forall a, In a L -> fleb (ind_SSE (heap r b)) (ind_SSE (heap r (rid (oid a)))) = true.
Lemma call_knows : forall s r L k oo np f, knows s r L -> k < n \/ late s (k - n) -> knows s (rep_step ncb r (RCall (rid k) oo np f)) L.
Proof.
  intros s r L k oo np f K Hk A. destruct (call_frame ncb r (rid k) oo np f) as (E1 & E2 & E3). cbn [rep_step] in *. rewrite E3 in A. rewrite E1, E2.
  destruct (K A) as (b & B1 & B2 & B3 & B4). rewrite B1.
  assert (Cn : counts (heap r) (RCall (rid k) oo np f) = [] \/ counts (heap r) (RCall (rid k) oo np f) = [rid k]) by (cbn [counts]; destruct oo; auto; destruct (ind_bool _); auto).
  destruct Cn as [-> | ->]; cbn [fold_left upd_best]; [exists b; auto|]. destruct (ind_lt (heap r (rid k)) (heap r b)) eqn:Lt; [|exists b; auto].
  assert (Le : fleb (ind_SSE (heap r (rid k))) (ind_SSE (heap r b)) = true) by (unfold ind_lt in Lt; rewrite !float_SSE in Lt; now apply fltb_fleb).
  exists (rid k). split; auto. split; [apply fleb_spec in Le; tauto|]. split; [intros k' E; apply rid_inj in E; now subst k'|].
  intros a Ha. eapply fleb_trans; eauto.
Qed.
Lemma challenge_knows : forall s r L k it, knows s r L -> k < n \/ late s (k - n) -> knows s (report_challenge ncb r (rid k) it) L.
Proof. intros s r L k it H K. rewrite report_challenge_eq. destruct (aborted r); auto. now apply call_knows. Qed.
(** a winner is reported, so it is known as well *)
Lemma winner_knows : forall s r L k it, knows s r L -> k < n \/ late s (k - n) -> isnan (ind_SSE (heap r (rid k))) = false -> forall a, oid a = k ->
  knows s (report_challenge ncb r (rid k) it) (a :: L).
Proof.
  intros s r L k it K Hk Nk a Oa A. assert (K2 := challenge_knows s r L k it K Hk). assert (Ar : aborted r = false).
  { rewrite report_challenge_eq in A. destruct (aborted r) eqn:Ar; auto. congruence. }
  destruct (K2 A) as (b & B1 & B2 & B3 & B4). exists b. split; auto. split; auto. split; auto. intros a' [<-|Ha]; [|auto]. rewrite Oa. clear B4 K2.
  rewrite report_challenge_eq in *. rewrite Ar in *. destruct (call_frame ncb r (rid k) (Some it) false false) as (E1 & E2 & E3). cbn [rep_step] in *. rewrite E1, E2 in *.
  destruct (K Ar) as (b0 & C1 & C2 & _). cbn [counts fold_left upd_best] in B1. rewrite C1 in B1. unfold upd_best in B1. destruct (ind_lt (heap r (rid k)) (heap r b0)) eqn:Lt.
  - assert (b = rid k) as -> by congruence. now apply fleb_refl.
  - assert (b = b0) as -> by congruence. unfold ind_lt in Lt. rewrite !float_SSE in Lt.
    destruct (Rlt_le_dec (key (ind_SSE (heap r (rid k)))) (key (ind_SSE (heap r b0)))) as [G|G].
    + exfalso. assert (W : fltb (ind_SSE (heap r (rid k))) (ind_SSE (heap r b0)) = true) by (apply fltb_spec; auto). congruence.
    + apply fleb_spec. auto.
Qed.
Lemma best_knows : forall s r L, knows s r L -> (forall a, In a L -> oid a < n \/ late s (oid a - n)) -> knows s (report_best ncb argsort rid r L) L.
Proof.
  intros s r L K M. destruct (best_member argsort rid (heap r) L) as [b|] eqn:E; [|unfold report_best; now rewrite E].
  rewrite (report_best_eq _ _ _ E). destruct (aborted r); auto. apply call_knows; auto. apply M. eapply best_member_in; eauto.
Qed.
Lemma knows_ext : forall s s' r r' L L', knows s r L -> heap r' = heap r -> best r' = best r -> (aborted r' = false -> aborted r = false) ->
  (forall d, late s d -> late s' d) -> incl L' L -> knows s' r' L'.
Proof.
  intros s s' r r' L L' K E1 E2 E3 E4 E5 A. destruct (K (E3 A)) as (b & B1 & B2 & B3 & B4). exists b. rewrite E1, E2. split; auto. split; auto. split; auto.
  intros k Hk. destruct (B3 k Hk); auto.
Qed.
Lemma eval_knows : forall s r tg B c s', RV s r B -> lstep (better_at func t PS xSSE n ncb rid s r tg (LC (EEvalDone c))) s (LC (EEvalDone c)) = Some s' ->
  knows (lch s) r (pop (lch s)) -> knows (lch s') (fst (eval_done func t PS xSSE n ncb rid s r tg c)) (pop (lch s')).
Proof.
  intros s r tg B c s' V H K.
  destruct (nth_error (cs (lch s)) c) as [[q pp]|] eqn:Ec; [|simpl in H; rewrite Ec in H; discriminate].
  destruct pp as [| | |it ch| | | |]; try (simpl in H; rewrite Ec in H; discriminate).
  assert (NL := not_late _ _ _ _ _ Ec). assert (LL : forall d, late (lch s) d -> late (lch s') d) by (intros d; eapply late_lstep; eauto).
  assert (LC' : late (lch s') c) by (eapply eval_late; eauto).
  assert (NK : forall a, In a (pop (lch s)) -> oid a <> n + c).
  { intros a Ha E. destruct (v_known _ _ _ V a Ha) as [X|X]; [lia|]. rewrite E in X. replace (n + c - n) with c in X by lia. contradiction. }
  cbn [LoopModel.lstep ChalModel.step better_at] in H. rewrite Ec, (eval_heap s r tg c), Ec in H. unfold eval_done. rewrite Ec.
  destruct (evo c it ch) as [x|] eqn:Hx.
  - assert (Ox := ev_oid _ _ _ l _ _ _ _ Hx). set (r1 := set_heap r (rid (oid x)) (oind x)) in *.
    assert (K1 : knows (lch s') r1 (pop (lch s))).
    { intros A. destruct (K A) as (b & B1 & B2 & B3 & B4).
      assert (Nb : b <> rid (oid x)). { intros E. destruct (B3 _ E) as [X|X]; [lia|]. rewrite Ox in X. replace (n + c - n) with c in X by lia. contradiction. }
      assert (Hb : heap r1 b = heap r b) by (unfold r1; cbn [set_heap heap]; destruct (Nat.eqb_spec b (rid (oid x))); [contradiction|reflexivity]).
      exists b. rewrite Hb. split; [exact B1|]. split; [exact B2|]. split; [intros k Hk; destruct (B3 k Hk); auto|].
      intros a Ha. unfold r1 at 1. cbn [set_heap heap]. destruct (Nat.eqb_spec (rid (oid a)) (rid (oid x))) as [E|_]; [|now apply B4].
      apply rid_inj in E. rewrite Ox in E. now destruct (NK a Ha). }
    assert (Kc : oid x < n \/ late (lch s') (oid x - n)) by (right; rewrite Ox; now replace (n + c - n) with c by lia).
    destruct (ChalModel.run (lch s)).
    + destruct (better_heap rid (heap r1) x it) eqn:Bt.
      * injection H as <-. cbn [fst lch pop] in *.
        assert (Nx : isnan (ind_SSE (heap r1 (rid (oid x)))) = false).
        { unfold better_heap, ind_lt in Bt. rewrite !float_SSE in Bt. apply fltb_spec in Bt. tauto. }
        assert (W := winner_knows _ r1 _ (oid x) (rid (oid it)) K1 Kc Nx x eq_refl).
        eapply knows_ext; [exact W|reflexivity|reflexivity|auto|auto|].
        intros a Ha. apply In_nth_error in Ha. destruct Ha as [k Ha]. destruct (Nat.eq_dec (kt q) k) as [<-|N].
        -- rewrite upd_same in Ha by (apply nth_error_Some; rewrite (target_member s r B c q it ch V Ec); discriminate).
           injection Ha as <-. now left.
        -- rewrite upd_other in Ha by auto. right. eapply nth_error_In; eauto.
      * assert (P : pop (lch s') = pop (lch s)) by (injection H as <-; reflexivity). rewrite P. destruct xSSE; cbn [fst]; auto. now apply challenge_knows.
    + assert (P : pop (lch s') = pop (lch s)) by (injection H as <-; reflexivity). rewrite P. exact K1.
  - assert (P : pop (lch s') = pop (lch s)) by (injection H as <-; reflexivity). rewrite P. cbn [fst].
    eapply knows_ext; [exact K|reflexivity|reflexivity|auto|exact LL|apply incl_refl].
Qed.
Lemma plain_pop : forall bt s e s', (forall c, e <> LC (EEvalDone c)) -> lstep bt s e = Some s' -> pop (lch s') = pop (lch s).
Proof.
  intros bt s e s' NE H. assert (H' : lstep (better_now []) s e = Some s').
  { rewrite <- H. apply lstep_ext. intros e' -> c q it ch x -> _ _. now destruct (NE c). }
  assert (CS : CompModel.cstep p cons CR F j u func t PS histcrash xSSE npsin up0 up1 o n (s, []) (CL e) = Some (s', [])) by (cbn [CompModel.cstep fst snd]; now rewrite H').
  destruct (cstep_pop _ _ _ _ _ _ _ _ _ _ _ _ _ _ _ l _ _ _ CS) as [E|(c & q & it & ch & x & E & _)]; [exact E|]. injection E as ->. now destruct (NE c).
Qed.
Lemma step_knows : forall x e x' B, RV (rl x) (rr x) B -> rr_step x e = Some x' -> (forall m, e <> RComp m true) ->
  knows (lch (rl x)) (rr x) (members x) -> knows (lch (rl x')) (rr x') (members x').
Proof.
  intros x e x' B V H NC K. assert (V' : exists B', RV (rl x') (rr x') B') by (destruct (step_RV _ _ _ _ V H) as (? & B' & _ & _ & V'); eauto).
  destruct V' as [B' V'].
  destruct e as [e|m c|m ok].
  - cbn [RunRepModel.rr_step] in H. destruct (waits e && negb (idle (rr x))); [discriminate|].
    match type of H with match ?y with _ => _ end = _ => destruct y as [s|] eqn:E; [|discriminate] end.
    assert (LL : forall d, late (lch (rl x)) d -> late (lch s) d) by (intros d; eapply late_lstep; eauto).
    enough (G : forall r tg, (match e with LC (EEvalDone c) => eval_done func t PS xSSE n ncb rid (rl x) (rr x) (rtg x) c
        | LC (EHistDone c) => (hist_done histcrash n ncb rid (rr x) (rtg x) c, rtg x) | LC EPopAbort => (rep_step ncb (rr x) RAbort, rtg x) | _ => (rr x, rtg x) end) = (r, tg) -> knows (lch s) r (pop (lch s))).
    { match type of H with (let (_, _) := ?y in _) = _ => destruct y as [r tg] eqn:Y end. specialize (G r tg eq_refl).
      assert (XE : x' = mkRR s (final ncb argsort rid (rl x) s r) tg) by congruence. rewrite XE in V' |- *. cbn [rl rr] in *. unfold final in *.
      assert (M := v_known _ _ _ V'). destruct (lph (rl x)); destruct (lph s); auto; apply best_knows; auto. }
    intros r tg Y.
    assert (PL : (forall c, e <> LC (EEvalDone c)) -> pop (lch s) = members x) by (intros NE; eapply plain_pop; eauto).
    assert (K0 : (forall c, e <> LC (EEvalDone c)) -> knows (lch s) (rr x) (pop (lch s))).
    { intros NE. rewrite (PL NE). eapply knows_ext; [exact K|reflexivity|reflexivity|auto|exact LL|apply incl_refl]. }
    assert (PK : (forall c, e <> LC (EEvalDone c)) -> r = rr x -> knows (lch s) r (pop (lch s))) by (intros NE ->; auto).
    destruct e as [e| |q| | | |rirs uu fo|]; try (apply PK; [discriminate|congruence]).
    destruct e as [q|c|c|c|c|c|c| | |mm]; try (apply PK; [discriminate|congruence]).
    + assert (G := eval_knows (rl x) (rr x) (rtg x) B c s V E K). rewrite Y in G. exact G.
    + assert (R : r = hist_done histcrash n ncb rid (rr x) (rtg x) c) by congruence. rewrite R. unfold hist_done.
      destruct (histcrash c); [apply K0; discriminate|]. destruct (find _ _) as [[d it]|]; [|apply K0; discriminate].
      apply challenge_knows; [apply K0; discriminate|]. right. replace (n + c - n) with c by lia. apply LL. eapply hist_late; exact E.
    + assert (R : r = rep_step ncb (rr x) RAbort) by congruence. rewrite R. intros A. discriminate A.
  - cbn [RunRepModel.rr_step] in H. destruct (step_best ncb (rr x) (RDone m c) Logic.I) as [S1 S2]. cbn [counts fold_left] in S2.
    assert (SA := step_aborted ncb (rr x) (RDone m c)).
    assert (X : forall s, x' = mkRR s (rep_step ncb (rr x) (RDone m c)) (rtg x) -> lch s = lch (rl x) -> (aborted (rep_step ncb (rr x) (RDone m c)) = false -> aborted (rr x) = false) -> knows (lch (rl x')) (rr x') (members x')).
    { intros s -> Es Ab. cbn [rl rr]. rewrite Es. eapply knows_ext; [exact K|exact S1|exact S2|exact Ab|auto|apply incl_refl]. }
    destruct c.
    + injection H as <-. apply (X (rl x)); auto. intros A. now rewrite <- SA.
    + injection H as <-. apply (X (rl x)); auto. intros A. now rewrite <- SA.
    + destruct (nth_error (runs (rr x)) m) as [[i k pb []]|] eqn:Em; try discriminate H.
      match type of H with match ?y with _ => _ end = _ => destruct y as [s|]; [|discriminate] end.
      assert (XE : x' = mkRR s (rep_step ncb (rr x) (RDone m CbFails)) (rtg x)) by congruence. rewrite XE. cbn [rl rr]. intros A. rewrite SA in A. discriminate A.
  - destruct ok; [now destruct (NC m)|]. cbn [RunRepModel.rr_step] in H.
    match type of H with Some ?y = _ => assert (XE : x' = y) by congruence end. rewrite XE. cbn [rl rr].
    destruct (step_best ncb (rr x) (RComplained m false) Logic.I) as [S1 S2]. cbn [counts fold_left] in S2.
    eapply knows_ext; [exact K|exact S1|exact S2| |auto|apply incl_refl]. intros A. rewrite step_aborted in A. exact A.
Qed.
Theorem C113_known : (forall i, In i l -> isnan (ind_SSE i) = false) -> l <> [] ->
  (forall b, best r0 = Some b -> isnan (ind_SSE (heap r0 b)) = false /\ forall k, b = rid k -> k < n) ->
  forall es x, rr_exec start es = Some x -> (forall m, ~ In (RComp m true) es) -> aborted (rr x) = false ->
  exists b, best (rr x) = Some b /\ forall a, In a (members x) -> heap (rr x) (rid (oid a)) = oind a /\ fleb (ind_SSE (heap (rr x) b)) (ind_SSE (oind a)) = true.
Proof.
  intros NN NL RB.
  assert (K0 : knows (lch (rl start)) (rr start) (members start)).
  { assert (V0 := start_RV). assert (M0 : members start = objects l) by (cbn [rr_start rl]; now rewrite linit_lch). rewrite M0. intros A. cbn [rr_start rl rr] in *.
    destruct (RV_phinv _ _ _ V0) as [LP _]. assert (NP : objects l <> []) by (intros C; apply (f_equal (@length _)) in C; rewrite objects_length in C; destruct l; [congruence|discriminate]).
    destruct (best_member_min (heap r0) _ NP) as (z & Z1 & Z2 & Z3). rewrite (report_best_eq _ _ _ Z1) in *.
    destruct SU as (S1 & S2 & S3 & S4 & _). rewrite S4 in *. destruct (call_frame ncb r0 (rid (oid z)) None true true) as (E1 & E2 & E3). cbn [rep_step] in *. rewrite E1, E2.
    assert (HO : forall a, In a (objects l) -> oid a < n /\ isnan (ind_SSE (heap r0 (rid (oid a)))) = false /\ ind_bool (heap r0 (rid (oid a))) = true).
    { intros a Ha. apply objects_nth in Ha. destruct Ha as (i & Hi & _). split; [apply nth_error_Some; congruence|]. destruct (S2 _ _ Hi) as [-> Bi]. split; auto. apply NN. eapply nth_error_In; eauto. }
    destruct (HO z Z2) as (Oz & Nz & Bz). cbn [counts]. rewrite Bz. cbn [fold_left].
    assert (Mz : forall a, In a (objects l) -> fleb (ind_SSE (heap r0 (rid (oid z)))) (ind_SSE (heap r0 (rid (oid a)))) = true).
    { intros a Ha. destruct (Z3 a Ha) as [C|C]; auto. destruct (HO a Ha) as (_ & Na & _). congruence. }
    unfold upd_best. destruct (best r0) as [b|] eqn:Eb.
    - destruct (RB b eq_refl) as [Nb Kb]. destruct (ind_lt (heap r0 (rid (oid z))) (heap r0 b)) eqn:Lt.
      + exists (rid (oid z)). split; auto. split; auto. split; auto. intros k E. apply S1 in E. subst k. now left.
      + exists b. split; auto. split; auto. split; [intros k E; left; now apply Kb|]. intros a Ha. eapply fleb_trans; [|exact (Mz a Ha)].
        unfold ind_lt in Lt. rewrite !float_SSE in Lt. destruct (Rlt_le_dec (key (ind_SSE (heap r0 (rid (oid z))))) (key (ind_SSE (heap r0 b)))) as [G|G].
        * exfalso. assert (W : fltb (ind_SSE (heap r0 (rid (oid z)))) (ind_SSE (heap r0 b)) = true) by (apply fltb_spec; auto). congruence.
        * apply fleb_spec. auto.
    - exists (rid (oid z)). split; auto. split; auto. split; auto. intros k E. apply S1 in E. subst k. now left. }
  assert (G : forall es x, rr_exec start es = Some x -> (forall m, ~ In (RComp m true) es) -> knows (lch (rl x)) (rr x) (members x)).
  { induction es as [|e es IH] using rev_ind; intros x H NC; [cbn in H; assert (x = start) as -> by congruence; exact K0|].
    rewrite rr_exec_app in H. destruct (rr_exec start es) as [x1|] eqn:E1; [|discriminate]. cbn [RunRepModel.rr_exec] in H.
    destruct (rr_step x1 e) as [x2|] eqn:E2; [|discriminate]. assert (x2 = x) as -> by congruence.
    destruct (exec_RV _ _ _ _ start_RV E1) as (css & B & _ & _ & V). eapply step_knows; [exact V|exact E2| |].
    - intros m ->. apply (NC m). apply in_or_app. right. now left.
    - apply IH; auto. intros m C. apply (NC m). apply in_or_app. now left. }
  intros es x H NC A. destruct (G es x H NC A) as (b & B1 & _ & _ & B4). exists b. split; auto.
  destruct (exec_RV _ _ _ _ start_RV H) as (css & B & S & X & V). assert (EB := noblack _ _ _ X (seen_noblack _ _ S NC)). cbn [snd cstart] in EB. subst B.
  intros a Ha. assert (HH : heap (rr x) (rid (oid a)) = oind a) by (rewrite (v_heap _ _ _ V a Ha); reflexivity). split; auto. rewrite <- HH. auto.
Qed.
(** *** C113: a losing challenger whose SSE is recorded (xSSE not set) is not shown
    before the record has been made *)
Definition unseen (s : lst obj) (r : rep) (L : list obj) : Prop := forall c q, nth_error (cs (lch s)) c = Some (mkChal q PHist) ->
  ~ In (rid (n + c)) (scheds (log r)) /\ forall a, In a L -> oid a <> n + c.
Lemma call_unseen : forall s r L k oo np f, unseen s r L -> (forall c q, nth_error (cs (lch s)) c = Some (mkChal q PHist) -> k <> n + c) ->
  unseen s (rep_step ncb r (RCall (rid k) oo np f)) L.
Proof.
  intros s r L k oo np f U K c q H. destruct (U c q H) as [U1 U2]. split; auto.
  destruct (call_scheds ncb r (rid k) oo np f) as [E|E]; rewrite E; auto. intros C. apply in_app_or in C. destruct C as [C|[C|[]]]; auto. apply rid_inj in C. now apply (K c q H).
Qed.
Lemma challenge_unseen : forall s r L k it, unseen s r L -> (forall c q, nth_error (cs (lch s)) c = Some (mkChal q PHist) -> k <> n + c) ->
  unseen s (report_challenge ncb r (rid k) it) L.
Proof. intros s r L k it H K. rewrite report_challenge_eq. destruct (aborted r); auto. now apply call_unseen. Qed.
Lemma best_unseen : forall s r L, unseen s r L -> unseen s (report_best ncb argsort rid r L) L.
Proof.
  intros s r L U. destruct (best_member argsort rid (heap r) L) as [b|] eqn:E; [|unfold report_best; now rewrite E].
  rewrite (report_best_eq _ _ _ E). destruct (aborted r); auto. apply call_unseen; auto. intros c q H. apply (U c q H). eapply best_member_in; eauto.
Qed.
Lemma eval_unseen : forall s r tg B c s', RV s r B -> lstep (better_at func t PS xSSE n ncb rid s r tg (LC (EEvalDone c))) s (LC (EEvalDone c)) = Some s' ->
  unseen s r (pop (lch s)) -> unseen s' (fst (eval_done func t PS xSSE n ncb rid s r tg c)) (pop (lch s')).
Proof.
  intros s r tg B c s' V H U.
  destruct (nth_error (cs (lch s)) c) as [[q pp]|] eqn:Ec; [|simpl in H; rewrite Ec in H; discriminate].
  destruct pp as [| | |it ch| | | |]; try (simpl in H; rewrite Ec in H; discriminate).
  assert (NL := not_late _ _ _ _ _ Ec).
  assert (NK : forall a, In a (pop (lch s)) -> oid a <> n + c).
  { intros a Ha E. destruct (v_known _ _ _ V a Ha) as [X|X]; [lia|]. rewrite E in X. replace (n + c - n) with c in X by lia. contradiction. }
  assert (NS : ~ In (rid (n + c)) (scheds (log r))).
  { intros C. destruct (v_sched _ _ _ V _ C) as [X|X]; [lia|]. replace (n + c - n) with c in X by lia. contradiction. }
  assert (HF := fun d q' => hist_from _ _ _ _ _ _ _ _ _ _ _ _ d q' H).
  assert (U1 : unseen s' r (pop (lch s))).
  { intros d q' Hd. destruct (HF d q' Hd) as [[A _]|A]; [exact (U d q' A)|]. injection A as <-. auto. }
  cbn [LoopModel.lstep ChalModel.step better_at] in H. rewrite Ec, (eval_heap s r tg c), Ec in H. unfold eval_done. rewrite Ec.
  assert (GN : forall z s1, s' = s1 -> cs (lch s1) = cs (goto (lch s) c z) -> z <> PHist -> forall d q', nth_error (cs (lch s')) d = Some (mkChal q' PHist) -> n + c <> n + d).
  { intros z s1 -> E Nz d q' Hd C. assert (c = d) as <- by lia. rewrite E, goto_cs, Nat.eqb_refl, Ec in Hd. cbn in Hd. congruence. }
  destruct (evo c it ch) as [x|] eqn:Hx.
  - assert (Ox := ev_oid _ _ _ l _ _ _ _ Hx). rewrite Ox in *. set (r1 := set_heap r (rid (n + c)) (oind x)) in *.
    assert (V1 : unseen s' r1 (pop (lch s))) by exact U1.
    destruct (ChalModel.run (lch s)).
    + destruct (better_heap rid (heap r1) x it) eqn:Bt.
      * injection H as HE. cbn [fst]. assert (N1 := GN PRelT _ (eq_sym HE) eq_refl ltac:(discriminate)).
        apply challenge_unseen; [|exact N1]. intros d q' Hd. destruct (V1 d q' Hd) as [A1 A2]. split; [exact A1|].
        intros a Ha. rewrite <- HE in Ha. cbn [lch pop] in Ha. apply In_nth_error in Ha. destruct Ha as [k Ha]. destruct (Nat.eq_dec (kt q) k) as [<-|N].
        -- rewrite upd_same in Ha by (apply nth_error_Some; rewrite (target_member s r B c q it ch V Ec); discriminate).
           assert (x = a) as <- by congruence. rewrite Ox. exact (N1 d q' Hd).
        -- rewrite upd_other in Ha by auto. apply A2. eapply nth_error_In; eauto.
      * assert (P : pop (lch s') = pop (lch s)) by (injection H as <-; reflexivity). rewrite P. destruct xSSE; cbn [fst]; [|exact V1].
        injection H as HE. apply challenge_unseen; [exact V1|]. exact (GN PRelT _ (eq_sym HE) eq_refl ltac:(discriminate)).
    + assert (P : pop (lch s') = pop (lch s)) by (injection H as <-; reflexivity). rewrite P. exact V1.
  - assert (P : pop (lch s') = pop (lch s)) by (injection H as <-; reflexivity). rewrite P. exact U1.
Qed.
Lemma plain_unseen : forall bt s e s' r, (forall c, e <> LC (EEvalDone c)) -> lstep bt s e = Some s' -> unseen s r (pop (lch s)) -> unseen s' r (pop (lch s')).
Proof.
  intros bt s e s' r NE H U c q Hc. rewrite (plain_pop _ _ _ _ NE H).
  destruct (hist_from _ _ _ _ _ _ _ _ _ _ _ _ c q H Hc) as [[A _]|A]; [exact (U c q A)|now destruct (NE c)].
Qed.
Lemma step_unseen : forall x e x' B, RV (rl x) (rr x) B -> rr_step x e = Some x' -> unseen (rl x) (rr x) (members x) -> unseen (rl x') (rr x') (members x').
Proof.
  intros x e x' B V H U. destruct e as [e|m c|m ok].
  - cbn [RunRepModel.rr_step] in H. destruct (waits e && negb (idle (rr x))); [discriminate|].
    match type of H with match ?y with _ => _ end = _ => destruct y as [s|] eqn:E; [|discriminate] end.
    enough (G : forall r tg, (match e with LC (EEvalDone c) => eval_done func t PS xSSE n ncb rid (rl x) (rr x) (rtg x) c
        | LC (EHistDone c) => (hist_done histcrash n ncb rid (rr x) (rtg x) c, rtg x) | LC EPopAbort => (rep_step ncb (rr x) RAbort, rtg x) | _ => (rr x, rtg x) end) = (r, tg) -> unseen s r (pop (lch s))).
    { match type of H with (let (_, _) := ?y in _) = _ => destruct y as [r tg] eqn:Y end. specialize (G r tg eq_refl).
      assert (XE : x' = mkRR s (final ncb argsort rid (rl x) s r) tg) by congruence. rewrite XE. cbn [rl rr]. unfold final.
      destruct (lph (rl x)); destruct (lph s); auto; apply best_unseen; auto. }
    intros r tg Y.
    assert (K0 : (forall c, e <> LC (EEvalDone c)) -> unseen s (rr x) (pop (lch s))) by (intros NE; eapply plain_unseen; eauto).
    assert (PK : (forall c, e <> LC (EEvalDone c)) -> r = rr x -> unseen s r (pop (lch s))) by (intros NE ->; auto).
    destruct e as [e| |q| | | |rirs uu fo|]; try (apply PK; [discriminate|congruence]).
    destruct e as [q|c|c|c|c|c|c| | |mm]; try (apply PK; [discriminate|congruence]).
    + assert (G := eval_unseen (rl x) (rr x) (rtg x) B c s V E U). rewrite Y in G. exact G.
    + assert (R : r = hist_done histcrash n ncb rid (rr x) (rtg x) c) by congruence. rewrite R. unfold hist_done.
      destruct (histcrash c); [apply K0; discriminate|]. destruct (find _ _) as [[d it]|]; [|apply K0; discriminate].
      apply challenge_unseen; [apply K0; discriminate|]. intros d' q' Hd C. assert (c = d') as <- by lia.
      destruct (hist_from _ _ _ _ _ _ _ _ _ _ _ _ c q' E Hd) as [[_ A]|A]; [now apply A|discriminate A].
    + assert (R : r = rep_step ncb (rr x) RAbort) by congruence. rewrite R. exact (K0 ltac:(discriminate)).
  - cbn [RunRepModel.rr_step] in H. assert (S := other_scheds ncb (rr x) (RDone m c) ltac:(discriminate)).
    assert (X : forall s, x' = mkRR s (rep_step ncb (rr x) (RDone m c)) (rtg x) -> unseen s (rr x) (pop (lch s)) -> unseen (rl x') (rr x') (members x')).
    { intros s -> Us d q Hd. cbn [rl rr] in *. rewrite S. exact (Us d q Hd). }
    destruct c.
    + apply (X (rl x)); [congruence|exact U].
    + apply (X (rl x)); [congruence|exact U].
    + destruct (nth_error (runs (rr x)) m) as [[i k pb []]|] eqn:Em; try discriminate H.
      match type of H with match ?y with _ => _ end = _ => destruct y as [s|] eqn:E; [|discriminate] end.
      apply (X s); [congruence|]. eapply plain_unseen; [|exact E|exact U]. discriminate.
  - cbn [RunRepModel.rr_step] in H. assert (S := other_scheds ncb (rr x) (RComplained m ok) ltac:(discriminate)).
    match type of H with Some ?y = _ => assert (XE : x' = y) by congruence end. rewrite XE. intros d q Hd. cbn [rl rr] in *. rewrite S. exact (U d q Hd).
Qed.
Theorem C113_recorded : forall es x c q, rr_exec start es = Some x -> nth_error (cs (lch (rl x))) c = Some (mkChal q PHist) ->
  forall k, ~ In (k, rid (n + c)) (called (log (rr x))).
Proof.
  assert (G : forall es x, rr_exec start es = Some x -> unseen (rl x) (rr x) (members x)).
  { induction es as [|e es IH] using rev_ind; intros x H.
    - cbn in H. assert (x = start) as -> by congruence. intros c q Hc. cbn [rr_start rl] in Hc. rewrite linit_lch in Hc. destruct c; discriminate Hc.
    - rewrite rr_exec_app in H. destruct (rr_exec start es) as [x1|] eqn:E1; [|discriminate]. cbn [RunRepModel.rr_exec] in H.
      destruct (rr_step x1 e) as [x2|] eqn:E2; [|discriminate]. assert (x2 = x) as -> by congruence.
      destruct (exec_RV _ _ _ _ start_RV E1) as (css & B & _ & _ & V). eapply step_unseen; [exact V|exact E2|]. now apply IH. }
  intros es x c q H Hc k C. destruct (G es x H c q Hc) as [U _]. apply U. clear U G.
  destruct (exec_RV _ _ _ _ start_RV H) as (css & B & _ & _ & V). apply (called_scheduled ncb _ (v_inv _ _ _ V) _ _ C).
Qed.
End Runs.
Print Assumptions C113_complaints.
Print Assumptions C113_final.
Print Assumptions C113_best_of_all.
Print Assumptions C113_over.
Print Assumptions C113_known.
Print Assumptions C113_recorded.

(** ** A run over five individuals, with two callbacks *)
Definition rx_opts : opts := mkOpts 1 true 10 None true.
Definition rx_h (k : nat) : indiv := nth k cl5 (mkIndiv [] None None).
Definition rx_exec (f : nat -> f64) := rr_exec ex_pm [] (flit 1 (-1)) (fun _ => flit 1 (-1)) (fun _ => 0) (fun _ _ => flit 1 (-2))
  (fun c _ => EvSSE (Some (f c))) (fun _ => fone) (fun _ => mkEvpop (Some true) 5) (fun _ => false) true (fun _ => flit (-1) 0) c_up89 c_up87 rx_opts 5 2 stable_argsort (fun k => k).
Definition rx_start := rr_start rx_opts 2 stable_argsort (fun k => k) cl5 yfm ysc (r_init rx_h).
Definition rx_steps (q : quad) (c : nat) : list rrevent := map RRun (LReq q :: ysteps c).
Definition rx_fine : list rrevent := [RCb 0 CbNone; RCb 0 CbNone].
Definition rx_gen : list rrevent := rx_fine ++ [RRun LGo] ++ rx_steps (mkQuad 0 4 1 2) 0 ++ rx_steps (mkQuad 1 0 2 3) 1 ++ rx_steps (mkQuad 2 4 0 1) 2 ++
  rx_steps (mkQuad 3 4 0 1) 3 ++ rx_steps (mkQuad 4 3 1 2) 4 ++ map RRun [LAll; LJoin [] (flit 1 (-1)) FOk].
Definition rx_view (x : option rrun) := option_map (fun x => (lph (rl x), map oid (pop (lch (rl x))), called (log (rr x)), length (runs (rr x)), aborted (rr x))) x.
Lemma rx_set_up : set_up rx_opts cl5 2 (fun k => k) (r_init rx_h).
Proof.
  split; [auto|]. split.
  { intros k i H. unfold r_init, rx_h. cbn [heap]. split; [now apply nth_error_nth|].
    assert (X : forallb ind_bool cl5 = true) by (vm_compute; reflexivity). rewrite forallb_forall in X. apply X. eapply nth_error_In. exact H. }
  split; [intros k []|]. split; [reflexivity|]. split; [unfold rx_opts; cbn; lia|]. exists rx_h, []. reflexivity.
Qed.
(** the last challenge finds a better individual, which is shown and is the best of the final population *)
Example C113_nonvacuous :
  set_up rx_opts cl5 2 (fun k => k) (r_init rx_h) /\ is_argsort stable_argsort /\ dead_free (r_init rx_h) /\ forallb (fun i => negb (isnan (ind_SSE i))) cl5 = true /\
  rx_view (rx_exec cf rx_start (rx_gen ++ rx_fine)) = Some (LRep RMaxIter, [0; 1; 2; 3; 9], [(0, 4); (1, 4); (0, 9); (1, 9)], 0, false) /\
  rx_view (rx_exec cf rx_start (rx_gen ++ rx_fine ++ [RRun LFinish])) = Some (LEnd RMaxIter, [0; 1; 2; 3; 9], [(0, 4); (1, 4); (0, 9); (1, 9)], 0, false) /\
  rx_view (rx_exec cf rx_start (rx_gen ++ [RRun LFinish])) = None /\
  forallb (fun e => match e with RComp _ _ => false | _ => true end) (rx_gen ++ rx_fine) = true.
Proof.
  split; [exact rx_set_up|]. split; [exact stable_is_argsort|]. split; [intros y []|]. repeat split; vm_compute; reflexivity.
Qed.

(** *** C113: a complaint during the final report does upset it: the individual shown
    last is struck off, and the best of the population that is left was never shown *)
Definition rx_upset : list rrevent := rx_gen ++ [RCb 0 CbComplains; RComp 0 true; RCb 0 CbNone].
Example rx_upset_view :
  rx_view (rx_exec cf rx_start (rx_upset ++ [RRun LFinish])) = Some (LEnd RMaxIter, [0; 1; 2; 3; 9], [(0, 4); (1, 4); (0, 9); (1, 9)], 0, false) /\
  option_map (fun x => map (fun k => (feqb (ind_SSE (heap (rr x) k)) finf, feqb (ind_SSE (heap (rr x) k)) (flit 4 0))) [3; 9]) (rx_exec cf rx_start (rx_upset ++ [RRun LFinish])) = Some [(false, true); (true, false)].
Proof. split; vm_compute; reflexivity. Qed.
Theorem C113_complained_refuted :
  ~ forall es x x', rx_exec cf rx_start es = Some x -> rx_exec cf x [RRun LFinish] = Some x' ->
  aborted (rr x') = false -> (forall m, ~ In (RComp m false) es) ->
  exists z pre k, In z (pop (lch (rl x'))) /\
    (forall b, In b (pop (lch (rl x'))) -> fleb (ind_SSE (heap (rr x') (oid z))) (ind_SSE (heap (rr x') (oid b))) = true) /\
    called (log (rr x')) = pre ++ map (fun c => (c, k)) (seq 0 2) /\
    (k = oid z \/ ind_eq (heap (rr x') (oid z)) (heap (rr x') k) = true).
Proof.
  intros C.
  assert (V : match rx_exec cf rx_start rx_upset with
    | Some x => match rx_exec cf x [RRun LFinish] with
        | Some x' => aborted (rr x') = false /\ map oid (pop (lch (rl x'))) = [0; 1; 2; 3; 9] /\ called (log (rr x')) = [(0, 4); (1, 4); (0, 9); (1, 9)] /\
                     forallb (fun k => negb (fleb (ind_SSE (heap (rr x') k)) (ind_SSE (heap (rr x') 3)))) [0; 1; 2; 9] = true /\
                     ind_eq (heap (rr x') 3) (heap (rr x') 9) = false
        | None => False end
    | None => False end) by (vm_compute; repeat split; reflexivity).
  specialize (C rx_upset). destruct (rx_exec cf rx_start rx_upset) as [x|]; [|destruct V]. specialize (C x). destruct (rx_exec cf x [RRun LFinish]) as [x'|]; [|destruct V].
  destruct V as (V1 & V2 & V3 & V4 & V5).
  assert (ND : forall m, ~ In (RComp m false) rx_upset).
  { intros m H. assert (X : forallb (fun e => match e with RComp _ false => false | _ => true end) rx_upset = true) by (vm_compute; reflexivity).
    rewrite forallb_forall in X. specialize (X _ H). discriminate X. }
  destruct (C x' eq_refl eq_refl V1 ND) as (z & pre & k & Z1 & Z2 & Z3 & Z4).
  assert (Z : oid z = 3).
  { assert (I3 : In 3 (map oid (pop (lch (rl x'))))) by (rewrite V2; cbn; tauto). apply in_map_iff in I3. destruct I3 as (b & Eb & Hb). specialize (Z2 b Hb). rewrite Eb in Z2.
    assert (Iz : In (oid z) [0; 1; 2; 3; 9]) by (rewrite <- V2; now apply in_map). rewrite forallb_forall in V4.
    destruct (Nat.eq_dec (oid z) 3) as [|Nz]; auto. exfalso. assert (I : In (oid z) [0; 1; 2; 9]) by (cbn in Iz |- *; intuition congruence). specialize (V4 _ I). rewrite Z2 in V4. discriminate V4. }
  assert (K : k = 9).
  { rewrite V3 in Z3. apply (f_equal (@rev _)) in Z3. rewrite rev_app_distr in Z3. cbn [rev app map seq] in Z3. congruence. }
  subst k. rewrite Z in Z4. destruct Z4 as [Z4|Z4]; [discriminate Z4|congruence].
Qed.
Print Assumptions C113_complained_refuted.

(** the best known and the members' SSEs in the middle of the run: the winner is the
    best known at once, long before the final report *)
Definition rx_mid : list rrevent := firstn (length rx_gen - 2) rx_gen.
Example C113_known_nonvacuous :
  forallb (fun i => negb (isnan (ind_SSE i))) cl5 = true /\ cl5 <> [] /\ best (r_init rx_h) = None /\
  forallb (fun e => match e with RComp _ true => false | _ => true end) rx_mid = true /\
  option_map (fun x => (aborted (rr x), best (rr x), map oid (pop (lch (rl x))))) (rx_exec cf rx_start rx_mid) = Some (false, Some 9, [0; 1; 2; 3; 9]).
Proof. split; [vm_compute; reflexivity|]. split; [discriminate|]. split; [reflexivity|]. split; vm_compute; reflexivity. Qed.

(** *** C113: after a complaint a losing challenger can be shown as the best: the
    individual that was complained about stays the reporter's best with an infinite
    SSE, and any challenger is better, though it never becomes a member *)
Definition rx_execx (xS : bool) (f : nat -> f64) := rr_exec ex_pm [] (flit 1 (-1)) (fun _ => flit 1 (-1)) (fun _ => 0) (fun _ _ => flit 1 (-2))
  (fun c _ => EvSSE (Some (f c))) (fun _ => fone) (fun _ => mkEvpop (Some true) 5) (fun _ => false) xS (fun _ => flit (-1) 0) c_up89 c_up87 rx_opts 5 2 stable_argsort (fun k => k).
Definition rx_lost : list rrevent := [RCb 0 CbComplains; RComp 0 true; RCb 0 CbNone; RRun LGo] ++ rx_steps (mkQuad 0 4 1 2) 0.
Definition ever_member (xS : bool) (es : list rrevent) (k : nat) : Prop :=
  exists es1 es2 x1, es = es1 ++ es2 /\ rx_execx xS cf rx_start es1 = Some x1 /\ In k (map oid (pop (lch (rl x1)))).
Lemma ever_member_false : forall xS es k, forallb (fun m => match rx_execx xS cf rx_start (firstn m es) with
    | Some x => negb (existsb (Nat.eqb k) (map oid (pop (lch (rl x))))) | None => true end) (seq 0 (S (length es))) = true -> ~ ever_member xS es k.
Proof.
  intros xS es k H (es1 & es2 & x1 & E & H1 & H2). rewrite forallb_forall in H. specialize (H (length es1)).
  assert (I : In (length es1) (seq 0 (S (length es)))) by (apply in_seq; rewrite E, app_length; lia). specialize (H I).
  assert (F : firstn (length es1) es = es1) by (rewrite E; rewrite firstn_app, Nat.sub_diag, firstn_O, app_nil_r; apply firstn_all). rewrite F, H1 in H.
  apply negb_true_iff in H. assert (X : existsb (Nat.eqb k) (map oid (pop (lch (rl x1)))) = true) by (apply existsb_exists; exists k; split; [exact H2|apply Nat.eqb_refl]). rewrite X in H. discriminate H.
Qed.
Theorem C113_loser_refuted :
  ~ forall xS es x c k, rx_execx xS cf rx_start es = Some x -> In (c, k) (called (log (rr x))) -> ever_member xS es k.
Proof.
  intros C.
  assert (V : option_map (fun x => called (log (rr x))) (rx_execx true cf rx_start rx_lost) = Some [(0, 4); (1, 4); (0, 5)]) by (vm_compute; reflexivity).
  destruct (rx_execx true cf rx_start rx_lost) as [x|] eqn:E; [|discriminate V]. cbn [option_map] in V.
  assert (L : called (log (rr x)) = [(0, 4); (1, 4); (0, 5)]) by congruence.
  assert (M : ever_member true rx_lost 5) by (apply (C true rx_lost x 0 5 E); rewrite L; cbn; auto).
  revert M. apply ever_member_false. vm_compute. reflexivity.
Qed.
Print Assumptions C113_loser_refuted.

(** the loser as above with its SSE recorded: shown only when the record is made *)
Definition rx_rec : list rrevent := firstn 11 rx_lost.
Example C113_recorded_nonvacuous :
  option_map (fun x => (option_map (fun y => match cpc y with PHist => true | _ => false end) (nth_error (cs (lch (rl x))) 0), called (log (rr x)))) (rx_execx false cf rx_start rx_rec)
    = Some (Some true, [(0, 4); (1, 4)]) /\
  option_map (fun x => called (log (rr x))) (rx_execx false cf rx_start (rx_rec ++ [RRun (LC (EHistDone 0))])) = Some [(0, 4); (1, 4); (0, 5)].
Proof. split; vm_compute; reflexivity. Qed.
