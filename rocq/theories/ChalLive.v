(** Termination, progress, freezing and monotonicity of challenges *)
From Coq Require Import List Bool Arith Lia Sorted.
From Verif Require Import Py ChalModel ChalProofs ChalSerial.
Import ListNotations.

Section Proofs.
Context {I : Type}.
#[local] Arguments enqueue : simpl never.
#[local] Arguments quad_list : simpl never.
#[local] Arguments filter : simpl never.
Ltac inv_opt := match goal with H : Some _ = Some _ |- _ => injection H as <- end.

(** ** measure *)
Definition msr (N : nat) (x : chal I) : nat :=
  match cpc x with
  | PWait _ => N + 9
  | PRelAll l => length l + 1
  | PRel _ _ _ _ l => length l + 5
  | PEval _ _ => 4
  | PHist => 2
  | PRelT => 1
  | PDone | PFail => 0
  end.
Definition total (s : st I) : nat := list_sum (map (msr (length (locks s))) (cs s)) + length (abq s).

Lemma sum_upd : forall (f : chal I -> nat) l c x y, nth_error l c = Some x ->
  list_sum (map f (upd c y l)) + f x = list_sum (map f l) + f y.
Proof.
  intros f. induction l as [|z l IH]; intros [|c] x y H; simpl in *; try discriminate.
  - injection H as ->. lia.
  - specialize (IH c x y H). lia.
Qed.
Lemma total_goto : forall s c q p0 p, nth_error (cs s) c = Some (mkChal q p0) ->
  total (goto s c p) + msr (length (locks s)) (mkChal q p0) = total s + msr (length (locks s)) (mkChal q p).
Proof.
  intros s c q p0 p E. unfold total. cbn [goto with_cs cs locks abq]. unfold set_pc. rewrite E. cbn [cq].
  assert (X := sum_upd (msr (length (locks s))) (cs s) c _ (mkChal q p) E). lia.
Qed.
Lemma total_release1 : forall k s, total (release1 k s) = total s.
Proof.
  intros k s. unfold total. destruct (release1_misc k s) as (_ & _ & _ & -> & -> & _).
  f_equal. f_equal. apply nth_error_ext. intros d. rewrite !nth_error_map, release1_cs.
  destruct (nth_error (cs s) d) as [[q p]|]; auto.
  destruct (match tl (L s k) with [] => false | h :: _ => d =? h end); auto. destruct p; auto.
Qed.

(** events that are not new outside input: everything except starting a
    challenge and asking for shutdown or abort *)
Definition internal (e : event) : bool :=
  match e with ERequest _ | EShutdown | EPopAbort => false | _ => true end.

Variable mk : nat -> I -> I -> I -> I -> mkres I.
Variable ev : nat -> I -> I -> option I.
Variable better : I -> I -> bool.
Variable histcrash : nat -> bool.
Variable xSSE : bool.
Notation step := (step mk ev better histcrash xSSE).
Notation exec := (exec mk ev better histcrash xSSE).

Lemma len_goto : forall (s : st I) c p, length (locks (goto s c p)) = length (locks s).
Proof. reflexivity. Qed.

Lemma total_dec : forall s e s', internal e = true -> step s e = Some s' -> total s' < total s.
Proof.
  intros s e s' Hi H. destruct e as [q|c|c|c|c|c|c| | |n]; try discriminate; simpl in H.
  - destruct (nth_error (cs s) c) as [[q p]|] eqn:E; [|discriminate]. destruct p as [[|]| | | | | | |]; try discriminate.
    assert (X : total (goto s c (PRelAll (seq 0 (length (locks s))))) < total s).
    { assert (T := total_goto s c q _ (PRelAll (seq 0 (length (locks s)))) E). unfold msr in T; simpl in T. rewrite seq_length in T. lia. }
    destruct (run s); [|now inv_opt].
    destruct (nth_error (pop s) (kt q)) as [it|]; [|now inv_opt]. destruct (nth_error (pop s) (kb q)) as [ib|]; [|now inv_opt].
    destruct (nth_error (pop s) (k0 q)) as [i0|]; [|now inv_opt]. destruct (nth_error (pop s) (k1 q)) as [i1|]; [|now inv_opt].
    inv_opt. assert (T := total_goto s c q _ (PRel it ib i0 i1 [kb q; k0 q; k1 q]) E). unfold msr in T; simpl in T. lia.
  - destruct (nth_error (cs s) c) as [[q p]|] eqn:E; [|discriminate].
    destruct p as [|l|it ib i0 i1 l| | | | |]; try discriminate; destruct l as [|k l]; try discriminate; inv_opt; rewrite ?total_release1.
    + assert (T := total_goto s c q _ PDone E). unfold msr in T; simpl in T. lia.
    + assert (T := total_goto s c q _ (PRelAll l) E). unfold msr in T; simpl in T. lia.
    + assert (T := total_goto s c q _ (PRel it ib i0 i1 l) E). unfold msr in T; simpl in T. lia.
  - destruct (nth_error (cs s) c) as [[q p]|] eqn:E; [|discriminate].
    destruct p as [| |it ib i0 i1 l| | | | |]; try discriminate; destruct l as [|k l]; try discriminate.
    destruct (mk c it ib i0 i1) as [|ch|]; inv_opt.
    + assert (T := total_goto s c q _ PRelT E). unfold msr in T; simpl in T. lia.
    + assert (T := total_goto s c q _ (PEval it ch) E). unfold msr in T; simpl in T. lia.
    + assert (T := total_goto s c q _ PFail E). unfold msr in T; simpl in T. lia.
  - destruct (nth_error (cs s) c) as [[q p]|] eqn:E; [|discriminate].
    destruct p as [| | |it ch| | | |]; try discriminate.
    assert (T := total_goto s c q _ PRelT E). unfold msr in T; simpl in T.
    assert (T2 := total_goto s c q _ PHist E). unfold msr in T2; simpl in T2.
    destruct (ev c it ch) as [r|].
    + destruct (run s); [|inv_opt; lia]. destruct (better r it); inv_opt.
      * change (total (goto s c PRelT) < total s). lia.
      * destruct xSSE; lia.
    + inv_opt. change (total (goto s c PRelT) < total s). lia.
  - destruct (nth_error (cs s) c) as [[q p]|] eqn:E; [|discriminate]. destruct p; try discriminate. inv_opt.
    assert (T := total_goto s c q _ PRelT E). unfold msr in T; simpl in T.
    assert (T2 := total_goto s c q _ PFail E). unfold msr in T2; simpl in T2.
    destruct (histcrash c); lia.
  - destruct (nth_error (cs s) c) as [[q p]|] eqn:E; [|discriminate]. destruct p; try discriminate. inv_opt.
    rewrite total_release1. assert (T := total_goto s c q _ PDone E). unfold msr in T; simpl in T. lia.
  - destruct (nth_error (abq s) n) as [k|] eqn:E; [|discriminate]. inv_opt. rewrite total_release1. unfold total. cbn [cs locks abq].
    assert (n < length (abq s)) by (apply nth_error_Some; congruence).
    rewrite app_length, firstn_length. change (match abq s with [] => [] | _ :: l => skipn n l end) with (skipn (S n) (abq s)).
    rewrite skipn_length. lia.
Qed.

Lemma internal_bounded : forall es s s', forallb internal es = true -> exec s es = Some s' -> length es + total s' <= total s.
Proof.
  induction es as [|e es IH]; intros s s' Hi H.
  - simpl in *. inv_opt. lia.
  - cbn [forallb] in Hi. apply andb_true_iff in Hi. destruct Hi as [H1 H2]. simpl in H. destruct (step s e) as [s1|] eqn:E; [|discriminate].
    specialize (IH s1 s' H2 H). assert (T := total_dec s e s1 H1 E). simpl. lia.
Qed.

(** ** progress *)
Definition unfinished (x : chal I) : bool := match cpc x with PDone | PFail => false | _ => true end.
Definition failed (x : chal I) : bool := match cpc x with PFail => true | _ => false end.

(** the oldest unfinished challenge can always take its next step *)
Lemma progress : forall s, G s -> existsb failed (cs s) = false -> existsb unfinished (cs s) = true ->
  exists e s', internal e = true /\ step s e = Some s'.
Proof.
  intros s g NF UF.
  (* least unfinished *)
  assert (X : exists c x, nth_error (cs s) c = Some x /\ unfinished x = true /\ forall d y, d < c -> nth_error (cs s) d = Some y -> unfinished y = false).
  { clear NF g. revert UF. generalize (cs s). induction l as [|x l IH]; simpl; intros H; [discriminate|].
    destruct (unfinished x) eqn:E.
    - exists 0, x. repeat split; auto. intros d y Hd. lia.
    - destruct (IH H) as (c & y & A1 & A2 & A3). exists (S c), y. repeat split; auto.
      intros [|d] z Hd Hz; simpl in Hz; [congruence|]. apply (A3 d z); auto. lia. }
  destruct X as (c & [q p] & E & Hu & Least).
  assert (NP : forall k, ~ W s c k).
  { intros k HW. apply (g_wait s g) in HW. destruct (L s k) as [|h t] eqn:El; [destruct HW|]. simpl in HW.
    assert (Hh : A s h k) by (apply (g_act s g); rewrite El; now left).
    assert (h < c) by (apply (sorted_hd h t c); auto; rewrite <- El; apply (g_sort s g)).
    destruct Hh as ([qh ph] & Eh & Ah). assert (Z := Least h _ H Eh).
    assert (F : failed (mkChal qh ph) = false).
    { apply not_true_iff_false. intros C. apply not_true_iff_false in NF. apply NF. apply existsb_exists. exists (mkChal qh ph). split; auto. eapply nth_error_In; eauto. }
    destruct ph; try discriminate. destruct Ah. }
  assert (NP' : pend (mkChal q p) = []).
  { destruct (pend (mkChal q p)) as [|k t] eqn:Ep; auto. exfalso. apply (NP k). exists (mkChal q p). rewrite Ep. split; auto. now left. }
  destruct p as [pd|l|it ib i0 i1 l|it ch| | | |]; try discriminate.
  - unfold pend in NP'; simpl in NP'. subst pd. exists (EResume c). simpl. rewrite E. destruct (run s); eauto.
    destruct (nth_error (pop s) (kt q)); eauto. destruct (nth_error (pop s) (kb q)); eauto.
    destruct (nth_error (pop s) (k0 q)); eauto. destruct (nth_error (pop s) (k1 q)); eauto.
  - exists (ERelease c). simpl. rewrite E. destruct l; eauto.
  - destruct l as [|k l]; [exists (EMutate c)|exists (ERelease c)]; simpl; rewrite E; eauto. destruct (mk c it ib i0 i1); eauto.
  - exists (EEvalDone c). simpl. rewrite E. destruct (ev c it ch); eauto. destruct (run s); eauto. destruct (better _ _); eauto.
  - exists (EHistDone c). simpl. rewrite E. eauto.
  - exists (ERelT c). simpl. rewrite E. eauto.
Qed.

(** without exceptions in constraints or history no challenge fails *)
Lemma existsb_nth : forall (l : list (chal I)), existsb failed l = false <-> (forall c x, nth_error l c = Some x -> failed x = false).
Proof.
  intros l. split.
  - intros H c x Hx. apply not_true_iff_false. intros C. apply not_true_iff_false in H. apply H. apply existsb_exists. exists x. split; auto. eapply nth_error_In; eauto.
  - intros H. apply not_true_iff_false. intros C. apply existsb_exists in C. destruct C as (x & Hx & C). apply In_nth_error in Hx. destruct Hx as [c Hc]. rewrite (H c x Hc) in C. discriminate.
Qed.
Hypothesis no_mk_crash : forall c a b d e, mk c a b d e <> MkCrash.
Hypothesis no_hist_crash : forall c, histcrash c = false.

Lemma failed_goto : forall s c p, (match p with PFail => false | _ => true end) = true -> existsb failed (cs s) = false -> existsb failed (cs (goto s c p)) = false.
Proof.
  intros s c p Hp H. apply existsb_nth. rewrite existsb_nth in H. intros d x. rewrite goto_cs. destruct (Nat.eqb_spec d c) as [->|]; eauto.
  destruct (nth_error (cs s) c); [|discriminate]. simpl. intros [= <-]. destruct p; auto; discriminate.
Qed.
Lemma failed_release1 : forall s k, existsb failed (cs s) = false -> existsb failed (cs (release1 k s)) = false.
Proof.
  intros s k H. apply existsb_nth. rewrite existsb_nth in H. intros d x. rewrite release1_cs.
  destruct (nth_error (cs s) d) as [y|] eqn:E; [|discriminate].
  destruct (match tl (L s k) with [] => false | h :: _ => d =? h end); intros [= <-]; eauto.
  assert (Z := H d y E). destruct y as [q p]. destruct p; auto.
Qed.
Lemma no_fail : forall s e s', existsb failed (cs s) = false -> step s e = Some s' -> existsb failed (cs s') = false.
Proof.
  intros s e s' F H. destruct e as [q|c|c|c|c|c|c| | |n]; simpl in H.
  - destruct (run s); [|discriminate]. simpl in H. destruct (okquad _ q); [|discriminate].
    destruct (prun s); inv_opt; simpl; rewrite existsb_app, F; reflexivity.
  - destruct (nth_error (cs s) c) as [[q p]|]; [|discriminate]. destruct p as [[|]| | | | | | |]; try discriminate.
    repeat (match goal with H : match ?x with _ => _ end = _ |- _ => destruct x end); inv_opt; now apply failed_goto.
  - destruct (nth_error (cs s) c) as [[q p]|]; [|discriminate]. destruct p as [|[|? ?]|? ? ? ? [|? ?]| | | | |]; try discriminate; inv_opt;
    try apply failed_release1; now apply failed_goto.
  - destruct (nth_error (cs s) c) as [[q p]|]; [|discriminate]. destruct p as [| |? ? ? ? [|? ?]| | | | |]; try discriminate.
    destruct (mk _ _ _ _ _) eqn:Em; [| |now apply no_mk_crash in Em]; inv_opt; now apply failed_goto.
  - destruct (nth_error (cs s) c) as [[q p]|]; [|discriminate]. destruct p; try discriminate.
    repeat (match goal with H : match ?x with _ => _ end = _ |- _ => destruct x end); inv_opt; try (now apply failed_goto);
    try (change (existsb failed (cs (goto s c PRelT)) = false)); try (now apply failed_goto). 
    destruct xSSE; now apply failed_goto.
  - destruct (nth_error (cs s) c) as [[q p]|]; [|discriminate]. destruct p; try discriminate. inv_opt. rewrite no_hist_crash. now apply failed_goto.
  - destruct (nth_error (cs s) c) as [[q p]|]; [|discriminate]. destruct p; try discriminate. inv_opt. apply failed_release1. now apply failed_goto.
  - now inv_opt.
  - now inv_opt.
  - destruct (nth_error (abq s) n); [|discriminate]. inv_opt. now apply failed_release1.
Qed.
Lemma no_fail_exec : forall es s s', existsb failed (cs s) = false -> exec s es = Some s' -> existsb failed (cs s') = false.
Proof.
  induction es as [|e es IH]; simpl; intros s s' F H; [now inv_opt|].
  destruct (step s e) as [s1|] eqn:E; [|discriminate]. eapply IH; [eapply no_fail; eauto|exact H].
Qed.
End Proofs.

Section More.
Context {I : Type}.
Ltac inv_opt := match goal with H : Some _ = Some _ |- _ => injection H as <- end.
Variable mk : nat -> I -> I -> I -> I -> mkres I.
Variable ev : nat -> I -> I -> option I.
Variable better : I -> I -> bool.
Variable histcrash : nat -> bool.
Variable xSSE : bool.
Notation step := (step mk ev better histcrash xSSE).
Notation exec := (exec mk ev better histcrash xSSE).

Lemma release1_pop : forall k (s : st I), pop (release1 k s) = pop s. Proof. intros. apply release1_misc. Qed.
Lemma release1_run : forall k (s : st I), run (release1 k s) = run s. Proof. intros. apply release1_misc. Qed.

(** what a step can do to the population *)
Lemma step_pop : forall s e s', step s e = Some s' ->
  (run s = false -> run s' = false) /\
  (pop s' = pop s \/
   exists c q it ch r, e = EEvalDone c /\ nth_error (cs s) c = Some (mkChal q (PEval it ch)) /\ run s = true /\
     ev c it ch = Some r /\ better r it = true /\ pop s' = upd (kt q) r (pop s)).
Proof.
  intros s e s' H. destruct e as [q|c|c|c|c|c|c| | |n]; simpl in H.
  - destruct (run s) eqn:Er; [|discriminate]. split; [discriminate|]. simpl in H. destruct (okquad _ q); [|discriminate].
    destruct (prun s); inv_opt; auto.
  - destruct (nth_error (cs s) c) as [[q p]|]; [|discriminate]. destruct p as [[|]| | | | | | |]; try discriminate.
    destruct (run s) eqn:Er; [split; [discriminate|]|inv_opt; auto].
    repeat (match goal with H : match ?x with _ => _ end = _ |- _ => destruct x end); inv_opt; auto.
  - destruct (nth_error (cs s) c) as [[q p]|]; [|discriminate]. destruct p as [|[|? ?]|? ? ? ? [|? ?]| | | | |]; try discriminate; inv_opt;
    rewrite ?release1_pop, ?release1_run; auto.
  - destruct (nth_error (cs s) c) as [[q p]|]; [|discriminate]. destruct p as [| |? ? ? ? [|? ?]| | | | |]; try discriminate.
    destruct (mk _ _ _ _ _); inv_opt; auto.
  - destruct (nth_error (cs s) c) as [[q p]|] eqn:E; [|discriminate]. destruct p as [| | |it ch| | | |]; try discriminate.
    destruct (ev c it ch) as [r|] eqn:Ee; [|inv_opt; auto].
    destruct (run s) eqn:Er; [|inv_opt; auto]. split; [discriminate|].
    destruct (better r it) eqn:Eb; inv_opt; auto. right. exists c, q, it, ch, r. auto 10.
  - destruct (nth_error (cs s) c) as [[q p]|]; [|discriminate]. destruct p; try discriminate. inv_opt. auto.
  - destruct (nth_error (cs s) c) as [[q p]|]; [|discriminate]. destruct p; try discriminate. inv_opt. rewrite release1_pop, release1_run. auto.
  - inv_opt. auto.
  - inv_opt. auto.
  - destruct (nth_error (abq s) n); [|discriminate]. inv_opt. rewrite release1_pop, release1_run. auto.
Qed.

Lemma frozen : forall es s s', run s = false -> exec s es = Some s' -> pop s' = pop s /\ run s' = false.
Proof.
  induction es as [|e es IH]; simpl; intros s s' R H; [now inv_opt|].
  destruct (step s e) as [s1|] eqn:E; [|discriminate]. destruct (step_pop s e s1 E) as [R1 P1].
  destruct (IH s1 s' (R1 R) H) as [-> ->]. split; auto. destruct P1 as [->|(c & q & it & ch & r & _ & _ & X & _)]; auto. congruence.
Qed.

(** ** generation-structured executions: no new challenge for a target that
    still has an unfinished one (_run waits for all challenges of a generation
    before starting the next, de.py:590-610, and a generation has one challenge
    per target) *)
Definition targets_free (s : st I) (e : event) : bool :=
  match e with
  | ERequest q => forallb (fun x => match cpc x with PDone | PFail => true | _ => negb (kt (cq x) =? kt q) end) (cs s)
  | _ => true
  end.
Fixpoint gexec (s : st I) (es : list event) : option (st I) :=
  match es with
  | [] => Some s
  | e :: es => if targets_free s e then match step s e with Some s' => gexec s' es | None => None end else None
  end.
Lemma gexec_exec : forall es s s', gexec s es = Some s' -> exec s es = Some s'.
Proof.
  induction es as [|e es IH]; simpl; intros s s' H; auto. destruct (targets_free s e); [|discriminate].
  destruct (step s e); auto.
Qed.

Definition target_of (x : chal I) : option I :=
  match cpc x with PRel it _ _ _ _ => Some it | PEval it _ => Some it | _ => None end.
Definition live (x : chal I) : bool := match cpc x with PDone | PFail => false | _ => true end.
Record GI (s : st I) : Prop := mkGI {
  gi_one : forall c d x y, nth_error (cs s) c = Some x -> nth_error (cs s) d = Some y -> live x = true -> live y = true ->
           kt (cq x) = kt (cq y) -> c = d;
  gi_val : forall c x it, nth_error (cs s) c = Some x -> target_of x = Some it -> nth_error (pop s) (kt (cq x)) = Some it
}.
Lemma GI_init : forall p, GI (init p).
Proof. intros p. split; intros [|c]; discriminate. Qed.
Lemma GI_release1 : forall k s, GI s -> GI (release1 k s).
Proof.
  intros k s [O V].
  assert (X : forall c x, nth_error (cs (release1 k s)) c = Some x -> exists y, nth_error (cs s) c = Some y /\ cq x = cq y /\ live x = live y /\ target_of x = target_of y).
  { intros c x. rewrite release1_cs. destruct (nth_error (cs s) c) as [y|]; [|discriminate].
    destruct (match tl (L s k) with [] => false | h :: _ => c =? h end); intros [= <-]; exists y; auto.
    destruct y as [q p]; destruct p; auto. }
  split.
  - intros c d x y Hx Hy. destruct (X _ _ Hx) as (x' & Hx' & -> & -> & _). destruct (X _ _ Hy) as (y' & Hy' & -> & -> & _). now apply O.
  - intros c x it Hx Ht. rewrite release1_pop. destruct (X _ _ Hx) as (x' & Hx' & -> & _ & E). rewrite E in Ht. eauto.
Qed.
Lemma GI_goto : forall s c q p0 p, GI s -> nth_error (cs s) c = Some (mkChal q p0) -> live (mkChal q p0) = true ->
  (forall it, target_of (mkChal q p) = Some it -> nth_error (pop s) (kt q) = Some it) -> GI (goto s c p).
Proof.
  intros s c q p0 p [O V] E Lv Tv. split.
  - intros a b x y. rewrite !goto_cs, E. simpl. intros Hx Hy.
    assert (X : exists x', nth_error (cs s) a = Some x' /\ cq x = cq x' /\ (live x = true -> live x' = true)).
    { destruct (Nat.eqb_spec a c) as [->|]; [injection Hx as <-; exists (mkChal q p0); auto|eauto]. }
    assert (Y : exists x', nth_error (cs s) b = Some x' /\ cq y = cq x' /\ (live y = true -> live x' = true)).
    { destruct (Nat.eqb_spec b c) as [->|]; [injection Hy as <-; exists (mkChal q p0); auto|eauto]. }
    destruct X as (x' & X1 & -> & X2). destruct Y as (y' & Y1 & -> & Y2). intros. eapply O; eauto.
  - intros a x it. rewrite goto_cs, E. destruct (Nat.eqb_spec a c) as [->|]; [intros [= <-]; simpl; auto|]. apply V.
Qed.
Lemma GI_other : forall s r pr ab, GI s -> GI (mkSt (pop s) (locks s) (cs s) r pr ab).
Proof. intros s r pr ab [O V]. split; auto. Qed.

Lemma GI_step : forall s e s', GI s -> targets_free s e = true -> step s e = Some s' -> GI s'.
Proof.
  intros s e s' gi T H. destruct e as [q|c|c|c|c|c|c| | |n].
  - assert (X : exists p, cs s' = cs s ++ [mkChal q p] /\ pop s' = pop s /\ target_of (mkChal q p) = None).
    { unfold ChalModel.step in H. destruct (run s); [|discriminate]. cbn [andb] in H. destruct (okquad _ q); [|discriminate].
      destruct (prun s); inv_opt; eexists; repeat split. }
    destruct X as (p & Ec & Ep & Et). simpl in T. rewrite forallb_forall in T.
    assert (F : forall c x, nth_error (cs s) c = Some x -> live x = true -> kt (cq x) <> kt q).
    { intros c x Hx Lx. apply nth_error_In in Hx. apply T in Hx. destruct x as [qx px]. unfold live in Lx; simpl in *.
      destruct px; try discriminate; apply negb_true_iff, Nat.eqb_neq in Hx; auto. }
    split; rewrite Ec, ?Ep.
    + intros c d x y Hx Hy Lx Ly Ek. apply snoc_nth in Hx, Hy. destruct Hx as [Hx|[-> ->]], Hy as [Hy|[-> ->]]; auto.
      * eapply (gi_one s gi); eauto.
      * exfalso. eapply F; eauto.
      * exfalso. eapply F; eauto. 
    + intros c x it Hx Ht. apply snoc_nth in Hx. destruct Hx as [Hx|[-> ->]]; [eapply (gi_val s gi); eauto|congruence].
  - simpl in H. destruct (nth_error (cs s) c) as [[q p]|] eqn:E; [|discriminate]. destruct p as [[|]| | | | | | |]; try discriminate.
    assert (X : GI (goto s c (PRelAll (seq 0 (length (locks s)))))) by (eapply GI_goto; eauto; discriminate).
    destruct (run s); [|now inv_opt]. destruct (nth_error (pop s) (kt q)) as [it|] eqn:Et; [|now inv_opt].
    destruct (nth_error (pop s) (kb q)); [|now inv_opt]. destruct (nth_error (pop s) (k0 q)); [|now inv_opt]. destruct (nth_error (pop s) (k1 q)); [|now inv_opt].
    inv_opt. eapply GI_goto; eauto. unfold target_of; simpl. congruence.
  - simpl in H. destruct (nth_error (cs s) c) as [[q p]|] eqn:E; [|discriminate].
    destruct p as [|[|? ?]|it ib i0 i1 [|? ?]| | | | |]; try discriminate; inv_opt; try apply GI_release1; eapply GI_goto; eauto; try discriminate.
    unfold target_of; simpl. intros it' [= <-]. apply (gi_val s gi c _ it E eq_refl).
  - simpl in H. destruct (nth_error (cs s) c) as [[q p]|] eqn:E; [|discriminate].
    destruct p as [| |it ib i0 i1 [|? ?]| | | | |]; try discriminate.
    assert (V := gi_val s gi c _ it E eq_refl). simpl in V.
    destruct (mk _ _ _ _ _); inv_opt; eapply GI_goto; eauto; unfold target_of; simpl; congruence.
  - simpl in H. destruct (nth_error (cs s) c) as [[q p]|] eqn:E; [|discriminate]. destruct p as [| | |it ch| | | |]; try discriminate.
    assert (X : GI (goto s c PRelT)) by (eapply GI_goto; eauto; unfold target_of; simpl; discriminate).
    assert (Y : GI (goto s c PHist)) by (eapply GI_goto; eauto; unfold target_of; simpl; discriminate).
    destruct (ev c it ch) as [r|]; [|inv_opt; now apply (GI_other (goto s c PRelT))].
    destruct (run s); [|now inv_opt]. destruct (better r it); inv_opt; [|now destruct xSSE].
    split.
    + apply (gi_one _ X).
    + intros d y it' Hy Ht. cbn [cs pop] in *. rewrite upd_other; [now apply (gi_val _ X d)|].
      intros Ek. rewrite set_pc_nth in Hy. destruct (Nat.eqb_spec d c) as [->|Nd].
      * rewrite E in Hy. injection Hy as <-. discriminate.
      * apply Nd. symmetry. eapply (gi_one s gi c d); eauto. destruct y as [qy py]; destruct py; auto; discriminate.
  - simpl in H. destruct (nth_error (cs s) c) as [[q p]|] eqn:E; [|discriminate]. destruct p; try discriminate. inv_opt.
    eapply GI_goto; eauto. destruct (histcrash c); discriminate.
  - simpl in H. destruct (nth_error (cs s) c) as [[q p]|] eqn:E; [|discriminate]. destruct p; try discriminate. inv_opt.
    apply GI_release1. eapply GI_goto; eauto. discriminate.
  - simpl in H. inv_opt. now apply GI_other.
  - simpl in H. inv_opt. now apply GI_other.
  - simpl in H. destruct (nth_error (abq s) n); [|discriminate]. inv_opt. apply GI_release1. now apply GI_other.
Qed.
End More.
