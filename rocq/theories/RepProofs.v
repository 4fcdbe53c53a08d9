(** * Lemmas about RepModel.v *)
From Coq Require Import String List Bool Arith ZArith Lia.
From Verif Require Import Flt Py IndivModel RepModel.
Import ListNotations.
Local Open Scope nat_scope.
#[local] Arguments fltb : simpl never.
#[local] Arguments fleb : simpl never.
#[local] Arguments ind_lt : simpl never.
#[local] Arguments ind_bool : simpl never.
#[local] Arguments ind_eq : simpl never.
#[local] Arguments is_equiv : simpl never.
#[local] Arguments msg_ratio : simpl never.

Section R.
Variable ncb : nat.

(** ** frame lemmas *)
Lemma while_frame : forall s ip pb, let s' := fst (while_loop ncb s ip pb) in
  heap s' = heap s /\ best s' = best s /\ lastrep s' = lastrep s /\ runs s' = runs s /\ aborted s' = aborted s.
Proof.
  intros. subst s'. unfold while_loop, call_cb. destruct (aborted s) eqn:EA; [simpl; auto|]. destruct (sched s); [|simpl; auto].
  cbv zeta. destruct (_ && _); [simpl; auto|]. destruct (ncb =? 0); simpl; auto.
Qed.
Lemma for_frame : forall s i k pb, let s' := fst (for_loop ncb s i k pb) in
  heap s' = heap s /\ best s' = best s /\ lastrep s' = lastrep s /\ runs s' = runs s /\ aborted s' = aborted s.
Proof.
  intros. subst s'. unfold for_loop. destruct (aborted s) eqn:EA; [rewrite <- EA; apply while_frame|rewrite <- EA]. destruct (k <? ncb); [simpl; auto|apply while_frame].
Qed.
Lemma runcb_frame : forall s i pb, let s' := run_callbacks ncb s i pb in
  heap s' = heap s /\ best s' = best s /\ lastrep s' = lastrep s /\ aborted s' = aborted s.
Proof.
  intros. subst s'. unfold run_callbacks. cbv zeta. destruct (inprog _); [simpl; auto|].
  match goal with |- context [while_loop ncb ?x ?y ?z] => destruct (while_frame x y z) as (A & B & C & D & E); destruct (while_loop ncb x y z) as [t [r|]] end; simpl in *; auto.
Qed.
Lemma newbest_frame : forall s i f, let s' := new_best ncb s i f in
  heap s' = heap s /\ aborted s' = aborted s /\
  best s' = match best s with None => Some i | Some b => if ind_lt (heap s i) (heap s b) then Some i else Some b end.
Proof.
  intros. subst s'. unfold new_best. cbv zeta.
  match goal with |- context [if ?c then set_best s (Some i) else s] => set (ib := c) end.
  set (s1 := if ib then set_best s (Some i) else s).
  assert (H1 : heap s1 = heap s /\ aborted s1 = aborted s /\ best s1 = match best s with None => Some i | Some b => if ind_lt (heap s i) (heap s b) then Some i else Some b end).
  { subst s1. destruct ib eqn:E; unfold ib in E; destruct (best s) eqn:B; simpl; auto; try discriminate; rewrite E; auto. }
  destruct H1 as (H1 & H2 & H3).
  match goal with |- context [if ?c then run_callbacks _ _ _ _ else _] => destruct c end; [|auto].
  destruct (runcb_frame (set_lastrep s1 (Some i)) i (best (set_lastrep s1 (Some i)))) as (A & B & C & D). rewrite A, B, D. simpl. auto.
Qed.

(** ** C43: the best *)
(** the reports that count: of one individual without error, or of a pair *)
Definition counts (h : nat -> indiv) (e : revent) : list nat :=
  match e with
  | RCall i None _ _ => if ind_bool (h i) then [i] else []
  | RCall i (Some _) _ _ => [i]
  | _ => []
  end.
Definition upd_best (h : nat -> indiv) (o : option nat) (i : nat) : option nat :=
  match o with None => Some i | Some b => if ind_lt (h i) (h b) then Some i else Some b end.
Definition no_complaint (e : revent) : Prop := match e with RComplained _ true => False | _ => True end.
Lemma call_frame : forall s i o np f, heap (fst (fst (fst (rep_call ncb s i o np f)))) = heap s /\
  best (fst (fst (fst (rep_call ncb s i o np f)))) = fold_left (upd_best (heap s)) (counts (heap s) (RCall i o np f)) (best s) /\
  aborted (fst (fst (fst (rep_call ncb s i o np f)))) = aborted s.
Proof.
  intros. destruct (newbest_frame s i f) as (A & B & C). unfold rep_call. destruct o as [o|].
  - destruct (msg_ratio (heap s o) (heap s i) "!") as [rir sym]. cbn [counts fold_left]. unfold upd_best. destruct (best s) as [b|] eqn:E.
    + destruct (ind_lt (heap s i) (heap s b)) eqn:L; cbn [fst]; [rewrite A, B, C; auto|rewrite E; auto].
    + cbn [fst]. rewrite A, B, C. auto.
  - cbn [counts]. destruct (ind_bool (heap s i)); cbn [negb fst fold_left]; [|auto]. unfold upd_best. destruct (best s) as [b|] eqn:E; cbn [fst].
    + destruct (ind_lt (heap s i) (heap s b)) eqn:L; cbn [orb]; [cbn [fst]; rewrite A, B, C; auto|].
      destruct f; cbn [fst]; [rewrite A, B, C; auto|auto].
    + rewrite A, B, C. auto.
Qed.
Lemma step_best : forall s e, no_complaint e -> heap (rep_step ncb s e) = heap s /\
  best (rep_step ncb s e) = fold_left (upd_best (heap s)) (counts (heap s) e) (best s).
Proof.
  intros s [i o np f|n r|n ok|] NC; cbn [rep_step counts fold_left].
  - destruct (call_frame s i o np f) as (A & B & _). auto.
  - destruct (nth_error (runs s) n) as [[i k pb []]|]; auto. destruct r.
    + destruct (for_frame s i (S k) pb) as (A & B & _). destruct (for_loop ncb s i (S k) pb). simpl in *. auto.
    + destruct (_ && _); [simpl; auto|]. destruct (for_frame s i (S k) pb) as (A & B & _). destruct (for_loop ncb s i (S k) pb). simpl in *. auto.
    + destruct (while_frame (set_aborted s true) (Some i) pb) as (A & B & _). destruct (while_loop ncb (set_aborted s true) (Some i) pb). simpl in *. auto.
  - destruct ok; [destruct NC|]. destruct (nth_error (runs s) n) as [[i k pb []]|]; simpl; auto.
  - simpl. auto.
Qed.
Lemma exec_best : forall es s, Forall no_complaint es -> heap (rep_exec ncb s es) = heap s /\
  best (rep_exec ncb s es) = fold_left (upd_best (heap s)) (flat_map (counts (heap s)) es) (best s).
Proof.
  induction es as [|e es IH]; intros s F; [simpl; auto|]. inversion F; subst. cbn [rep_exec flat_map]. rewrite fold_left_app.
  destruct (step_best s e H1) as [A B]. destruct (IH (rep_step ncb s e) H2) as [C D]. rewrite C, D, A, B. auto.
Qed.
Lemma float_SSE : forall i, ind_float i = ind_SSE i.
Proof. intros. unfold ind_float, ind_SSE. destruct (istored i); [|reflexivity]. destruct (fltb f fzero) eqn:E; [reflexivity|now rewrite E]. Qed.
Lemma fold_best : forall h l b, isnan (ind_SSE (h b)) = false -> exists m, fold_left (upd_best h) l (Some b) = Some m /\
  In m (b :: l) /\ isnan (ind_SSE (h m)) = false /\ (m = b \/ fltb (ind_SSE (h m)) (ind_SSE (h b)) = true) /\
  forall i, In i (b :: l) -> ind_lt (h i) (h m) = false.
Proof.
  intros h. induction l as [|i l IH]; intros b N; cbn [fold_left].
  - exists b. repeat split; simpl; auto. intros i [<-|[]]. unfold ind_lt. apply fltb_irrefl.
  - unfold upd_best at 2. destruct (ind_lt (h i) (h b)) eqn:E.
    + unfold ind_lt in E. rewrite !float_SSE in E. destruct (fltb_nan _ _ E) as [Ni _]. destruct (IH i Ni) as (m & M1 & M2 & M3 & M4 & M5).
      exists m. split; auto. split; [simpl in *; tauto|]. split; auto.
      assert (L : fltb (ind_SSE (h m)) (ind_SSE (h b)) = true) by (destruct M4 as [->|M4]; auto; eapply fltb_trans; eauto).
      split; auto. intros j [<-|J]; [|apply M5; auto]. unfold ind_lt. rewrite !float_SSE. now apply fltb_asym.
    + destruct (IH b N) as (m & M1 & M2 & M3 & M4 & M5). exists m. split; auto. split; [simpl in *; tauto|]. split; auto. split; auto.
      intros j [<-|[<-|J]]; [apply M5; simpl; auto| |apply M5; simpl; auto].
      unfold ind_lt in *. rewrite !float_SSE in *. destruct M4 as [->|M4]; auto. destruct (fltb (ind_SSE (h i)) (ind_SSE (h m))) eqn:E2; auto.
      exfalso. rewrite (fltb_trans _ _ _ E2 M4) in E. discriminate.
Qed.

(** ** C45: the callback runs *)
Definition calls (l : list lev) : list (nat * nat) := flat_map (fun e => match e with ECall k i _ => [(k, i)] | _ => [] end) l.
Definition scheds (l : list lev) : list nat := flat_map (fun e => match e with ESched i => [i] | _ => [] end) l.
(** callbacks 0..n-1 called with individual j *)
Definition group (g : nat * nat) : list (nat * nat) := map (fun k => (k, fst g)) (seq 0 (snd g)).
Definition last_opt {A} (l : list A) : option A := match rev l with x :: _ => Some x | [] => None end.
Lemma last_opt_snoc : forall A (l : list A) x, last_opt (l ++ [x]) = Some x.
Proof. intros. unfold last_opt. now rewrite rev_app_distr. Qed.
Lemma calls_app : forall a b, calls (a ++ b) = calls a ++ calls b. Proof. intros. apply flat_map_app. Qed.
Lemma scheds_app : forall a b, scheds (a ++ b) = scheds a ++ scheds b. Proof. intros. apply flat_map_app. Qed.

(** the log is well formed: every call was preceded by a schedule of the
    individual *)
Definition sched_first (l : list lev) : Prop := forall pre k i x post, l = pre ++ ECall k i x :: post -> In i (scheds pre).
Lemma sf_snoc_other : forall l e, (forall k i x, e <> ECall k i x) -> sched_first l -> sched_first (l ++ [e]).
Proof.
  intros l e N H pre k i x post E. destruct (exists_last (l := ECall k i x :: post)) as (q & y & Q); [discriminate|]. rewrite Q, app_assoc in E.
  apply app_inj_tail in E as [E <-]. destruct q as [|z q]; [exfalso; injection Q as Q _; apply (N k i x); auto|]. simpl in Q. injection Q as <- Q. eapply H. exact E.
Qed.
Lemma sf_snoc_call : forall l k i x, In i (scheds l) -> sched_first l -> sched_first (l ++ [ECall k i x]).
Proof.
  intros l k i x I H pre k' i' x' post E. destruct (exists_last (l := ECall k' i' x' :: post)) as (q & y & Q); [discriminate|]. rewrite Q, app_assoc in E.
  apply app_inj_tail in E as [E <-]. destruct q as [|z q]; [injection Q as <- <- <- _; rewrite app_nil_r in E; now subst|]. simpl in Q. injection Q as <- Q. eapply H. exact E.
Qed.

Definition olist {A} (o : option A) : list A := match o with Some x => [x] | None => [] end.
(** [cur]: the individual being handed out and the number of callbacks called
    with it so far *)
Definition settled (h : nat -> indiv) (gs : list (nat * nat)) (i : nat) : Prop :=
  ncb = 0 \/ exists j, last_opt gs = Some (j, ncb) /\ (j = i \/ (ind_bool (h j) = true /\ ind_eq (h i) (h j) = true)).
Definition P (l : list lev) (ab : bool) (sc : option nat) (h : nat -> indiv) (cur : option (nat * nat)) : Prop :=
  exists gs, calls l = concat (map group (gs ++ olist cur)) /\
    Forall (fun g => 1 <= snd g <= ncb) (gs ++ olist cur) /\
    (ab = false -> Forall (fun g => snd g = ncb) gs) /\
    (ab = false -> match sc with
       | Some i => last_opt (scheds l) = Some i /\ cur <> None
       | None => match last_opt (scheds l) with
                 | None => gs = [] /\ cur = None
                 | Some i => match cur with Some c => fst c = i | None => settled h gs i end
                 end
       end) /\
    sched_first l /\
    (forall i, sc = Some i -> In i (scheds l)) /\
    (forall c, cur = Some c -> In (fst c) (scheds l)).
Lemma group_S : forall i n, group (i, S n) = group (i, n) ++ [(n, i)].
Proof. intros. unfold group. cbn [fst snd]. rewrite seq_S, map_app. reflexivity. Qed.
Lemma concat_snoc : forall gs g, concat (map group (gs ++ [g])) = concat (map group gs) ++ group g.
Proof. intros. rewrite map_app, concat_app. simpl. now rewrite app_nil_r. Qed.

Definition curof (r : run) : nat * nat := (r_i r, S (r_k r)).
(** the state after a piece of code that leaves run [r] suspended, or none *)
Definition after (s : rep) (r : option run) : Prop :=
  P (log s) (aborted s) (sched s) (heap s) (option_map curof r) /\ inprog s = match r with Some _ => true | None => false end.

Lemma P_close : forall l ab sc h i n, (ab = false -> n = ncb) -> P l ab sc h (Some (i, n)) ->
  (ab = false -> sc = None) -> P l ab sc h None.
Proof.
  intros l ab sc h i n Hn (gs & A & B & C & D & E & F & G) Hs. exists (gs ++ [(i, n)]). rewrite app_nil_r. simpl olist in *.
  split; auto. split; auto. split; [intros Z; apply Forall_app; split; auto; constructor; auto; now apply Hn|].
  split; [|split; auto; split; auto; discriminate]. intros Z. specialize (D Z). rewrite (Hs Z) in *. destruct (last_opt (scheds l)) as [j|].
  - simpl in D. subst j. right. exists i. rewrite last_opt_snoc, (Hn Z). auto.
  - destruct D as [_ D]. discriminate.
Qed.
Lemma while_P : forall s i n pb, inprog s = true -> P (log s) (aborted s) (sched s) (heap s) (Some (i, n)) ->
  (aborted s = false -> n = ncb) -> after (fst (while_loop ncb s (Some i) pb)) (snd (while_loop ncb s (Some i) pb)).
Proof.
  intros s i n pb IP H Hn. unfold while_loop. destruct (aborted s) eqn:EA.
  - split; auto. cbn [fst snd log set_inprog aborted sched heap option_map]. rewrite EA. eapply P_close; eauto. discriminate.
  - specialize (Hn eq_refl). subst n. destruct (sched s) as [i2|] eqn:ES.
    + cbv zeta. change (heap (set_sched s None)) with (heap s). destruct (truthy (heap s) (Some i) && eq_opt (heap s) i2 (Some i)) eqn:EE.
      * apply andb_true_iff in EE as [E1 E2]. simpl in E1, E2. split; auto. cbn [fst snd log set_inprog set_sched aborted sched heap option_map]. rewrite EA.
        destruct H as (gs & A & B & C & D & E & F & G). destruct (D eq_refl) as [D1 _]. exists (gs ++ [(i, ncb)]). simpl olist in *. rewrite app_nil_r.
        split; auto. split; auto. split; [intros _; apply Forall_app; split; auto|]. split; [|split; auto; split; [discriminate|discriminate]].
        intros _. rewrite D1. right. exists i. rewrite last_opt_snoc. auto.
      * destruct (Nat.eqb_spec ncb 0) as [Z|Z].
        { exfalso. destruct H as (gs & A & B & _). apply Forall_app in B as [_ B]. inversion B; subst. simpl in *. lia. }
        split; auto. cbn [call_cb fst snd log emit set_sched aborted sched heap option_map]. unfold curof. cbn [r_i r_k].
        destruct H as (gs & A & B & C & D & E & F & G). destruct (D eq_refl) as [D1 _]. simpl olist in *. exists (gs ++ [(i, ncb)]). rewrite EA. simpl olist.
        split; [rewrite calls_app, A, !concat_snoc, <- !app_assoc; reflexivity|].
        split; [apply Forall_app; split; auto; (constructor; [simpl; lia|constructor])|].
        split; [intros _; apply Forall_app; split; auto|]. rewrite scheds_app. cbn [scheds flat_map]. rewrite app_nil_r.
        split; [intros _; rewrite D1; reflexivity|]. split; [apply sf_snoc_call; auto|]. split; [discriminate|]. intros c Ec. injection Ec as <-. simpl. auto.
    + split; auto. cbn [fst snd log set_inprog aborted sched heap option_map]. rewrite EA, ES. eapply P_close; eauto.
Qed.
Lemma for_P : forall s i k pb, inprog s = true -> P (log s) (aborted s) (sched s) (heap s) (Some (i, k)) ->
  after (fst (for_loop ncb s i k pb)) (snd (for_loop ncb s i k pb)).
Proof.
  intros s i k pb IP H. unfold for_loop. destruct (aborted s) eqn:EA; [apply while_P with k; rewrite ?EA; auto; discriminate|].
  destruct (Nat.ltb_spec k ncb) as [L|L].
  - split; auto. cbn [call_cb fst snd log emit aborted sched heap option_map]. unfold curof. cbn [r_i r_k]. rewrite EA.
    destruct H as (gs & A & B & C & D & E & F & G). simpl olist in *. exists gs. simpl olist.
    split; [rewrite calls_app, A, !concat_snoc, group_S, <- !app_assoc; reflexivity|].
    split; [apply Forall_app in B as [B1 B2]; apply Forall_app; split; auto; (constructor; [simpl; lia|constructor])|]. split; auto.
    rewrite scheds_app. cbn [scheds flat_map]. rewrite app_nil_r.
    split. { intros _. specialize (D eq_refl). destruct (sched s); [destruct D; split; auto; discriminate|]. destruct (last_opt _); auto. destruct D; discriminate. }
    assert (I : In i (scheds (log s))) by apply (G _ eq_refl).
    split; [apply sf_snoc_call; auto|]. split; auto. intros c Ec. injection Ec as <-. auto.
  - apply while_P with k; rewrite ?EA; auto. intros _. destruct H as (gs & A & B & _). apply Forall_app in B as [_ B]. inversion B; subst. simpl in *. lia.
Qed.

Definition inv (s : rep) : Prop :=
  match runs s with
  | [] => after s None
  | [r] => after s (Some r)
  | _ => False
  end.
Lemma P_sched : forall l ab sc h i c, P l ab sc h (Some c) -> P (l ++ [ESched i]) ab (Some i) h (Some c).
Proof.
  intros l ab sc h i c (gs & A & B & C & D & E & F & G). exists gs. rewrite calls_app, scheds_app. cbn [calls scheds flat_map]. rewrite !app_nil_r.
  split; auto. split; auto. split; auto. split; [intros _; rewrite last_opt_snoc; split; auto; discriminate|].
  split; [apply sf_snoc_other; auto; discriminate|]. split; [intros j Ej; injection Ej as <-; apply in_or_app; simpl; auto|].
  intros c' Ec. apply in_or_app. left. auto.
Qed.
Lemma runcb_inv : forall s i pb, inv s -> inv (run_callbacks ncb s i pb).
Proof.
  intros s i pb H. unfold inv in H. unfold run_callbacks. cbv zeta. change (inprog (emit (set_sched s (Some i)) (ESched i))) with (inprog s).
  destruct (runs s) as [|r [|]] eqn:ER; [| |destruct H].
  - destruct H as [H IP]. rewrite IP. destruct H as (gs & A & B & C & D & E & F & G). simpl olist in *. rewrite app_nil_r in *.
    assert (SF : sched_first (log s ++ [ESched i])) by (apply sf_snoc_other; auto; discriminate).
    assert (IS : In i (scheds (log s ++ [ESched i]))) by (rewrite scheds_app; apply in_or_app; simpl; auto).
    assert (LS : last_opt (scheds (log s ++ [ESched i])) = Some i) by (rewrite scheds_app; apply last_opt_snoc).
    assert (CL : calls (log s ++ [ESched i]) = concat (map group gs)) by (rewrite calls_app; simpl; now rewrite app_nil_r).
    unfold while_loop. cbn [set_inprog emit set_sched aborted sched heap truthy andb]. destruct (aborted s) eqn:EA.
    + unfold inv. cbn [set_inprog emit set_sched runs]. rewrite ER. split; auto. cbn [set_inprog emit set_sched log aborted sched heap option_map]. rewrite EA.
      exists gs. simpl olist. rewrite app_nil_r. split; auto. split; auto. split; [discriminate|]. split; [discriminate|]. split; auto.
      split; [intros j Ej; injection Ej as <-; auto|discriminate].
    + destruct (Nat.eqb_spec ncb 0) as [Z|Z].
      * unfold inv. cbn [set_inprog emit set_sched runs]. rewrite ER. split; auto. cbn [set_inprog emit set_sched log aborted sched heap option_map]. rewrite EA.
        exists gs. simpl olist. rewrite app_nil_r. split; auto. split; auto. split; auto. split; [intros _; rewrite LS; now left|]. split; auto. split; [discriminate|discriminate].
      * unfold call_cb, inv. cbn [set_inprog emit set_sched set_runs runs]. rewrite ER. cbn [app]. split; auto.
        cbn [set_inprog emit set_sched set_runs log aborted sched heap option_map]. rewrite EA. unfold curof. cbn [r_i r_k].
        exists gs. simpl olist. rewrite calls_app, CL, concat_snoc. split; auto.
        split; [apply Forall_app; split; auto; (constructor; [simpl; lia|constructor])|]. split; auto.
        rewrite (scheds_app _ [ECall _ _ _]). cbn [scheds flat_map]. rewrite app_nil_r. rewrite LS.
        split; auto. split; [apply sf_snoc_call; auto|]. split; [discriminate|]. intros c Ec. injection Ec as <-. auto.
  - destruct H as [H IP]. rewrite IP. unfold inv. cbn [emit set_sched runs]. rewrite ER. split; auto. cbn [emit set_sched log aborted sched heap].
    eapply P_sched. exact H.
Qed.
(** inv only depends on some fields *)
Lemma inv_ext : forall s s', runs s' = runs s -> log s' = log s -> aborted s' = aborted s -> sched s' = sched s -> inprog s' = inprog s ->
  heap s' = heap s -> inv s -> inv s'.
Proof. unfold inv, after. intros s s' -> -> -> -> -> ->. auto. Qed.
Lemma newbest_inv : forall s i f, inv s -> inv (new_best ncb s i f).
Proof.
  intros s i f H. unfold new_best. cbv zeta.
  match goal with |- context [if ?c then set_best s (Some i) else s] => set (s1 := if c then set_best s (Some i) else s) end.
  assert (H1 : inv s1). { subst s1. match goal with |- inv (if ?c then _ else _) => destruct c end; auto. }
  match goal with |- context [if ?c then run_callbacks _ _ _ _ else _] => destruct c end; auto. apply runcb_inv.
  apply (inv_ext s1); auto.
Qed.
Lemma call_inv : forall s i o np f, inv s -> inv (fst (fst (fst (rep_call ncb s i o np f)))).
Proof.
  intros s i o np f H. assert (N := newbest_inv s i f H). unfold rep_call. destruct o as [o|].
  - destruct (msg_ratio (heap s o) (heap s i) "!"). destruct (match best s with None => _ | Some _ => _ end); auto.
  - destruct (negb _); auto. destruct (best s); auto. destruct (_ || _); auto.
Qed.
Lemma replace_inv : forall s r, length (runs s) = 1 -> after s r -> inv (replace_run s 0 r).
Proof.
  intros s r L H. unfold inv, replace_run. cbn [set_runs runs firstn]. destruct (runs s) as [|x [|]]; try discriminate. cbn [skipn app].
  destruct r; cbn [app]; exact H.
Qed.
Lemma P_heap : forall l ab sc h h' c, P l ab sc h (Some c) -> P l ab sc h' (Some c).
Proof. intros l ab sc h h' c H. exact H. Qed.
Lemma P_abort : forall l ab sc h cur, P l ab sc h cur -> P l true sc h cur.
Proof.
  intros l ab sc h cur (gs & A & B & C & D & E & F & G). exists gs. split; auto. split; auto. split; [discriminate|]. split; [discriminate|]. auto.
Qed.
Lemma step_inv : forall s e, inv s -> inv (rep_step ncb s e).
Proof.
  intros s [i o np f|n r|n ok|] H; cbn [rep_step].
  - now apply call_inv.
  - destruct (nth_error (runs s) n) as [[i k pb []]|] eqn:EN; auto. assert (H' := H). unfold inv in H'. destruct (runs s) as [|x [|]] eqn:ER; [destruct n; discriminate| |destruct H'].
    destruct n as [|[|n]]; try discriminate. injection EN as ->. destruct H' as [HP IP]. cbn [option_map] in HP. unfold curof in HP. cbn [r_i r_k] in HP.
    assert (LF : forall t, runs t = runs s -> length (runs t) = 1) by (intros t ->; now rewrite ER). destruct r.
    + assert (Fr := for_frame s i (S k) pb). assert (X := for_P s i (S k) pb IP HP). destruct (for_loop ncb s i (S k) pb) as [t r]. cbn [fst snd] in *. apply replace_inv; auto. apply LF. tauto.
    + destruct (_ && _).
      * apply replace_inv; [simpl; now rewrite ER|]. split; auto. cbn [emit log aborted sched heap option_map]. unfold curof. cbn [r_i r_k].
        destruct HP as (gs & A & B & C & D & E & F & G). exists gs. rewrite calls_app, scheds_app. cbn [calls scheds flat_map]. rewrite !app_nil_r.
        split; auto. split; auto. split; auto. split; auto. split; [apply sf_snoc_other; auto; discriminate|]. auto.
      * assert (Fr := for_frame s i (S k) pb). assert (X := for_P s i (S k) pb IP HP). destruct (for_loop ncb s i (S k) pb) as [t r]. cbn [fst snd] in *. apply replace_inv; auto. apply LF. tauto.
    + assert (Fr := while_frame (set_aborted s true) (Some i) pb).
      assert (X : after (fst (while_loop ncb (set_aborted s true) (Some i) pb)) (snd (while_loop ncb (set_aborted s true) (Some i) pb))).
      { apply while_P with (S k); [exact IP| |discriminate]. simpl. eapply P_abort; eauto. }
      destruct (while_loop ncb (set_aborted s true) (Some i) pb) as [t r]. cbn [fst snd] in *. apply replace_inv; auto. apply LF. tauto.
  - destruct (nth_error (runs s) n) as [[i k pb []]|] eqn:EN; auto. assert (H' := H). unfold inv in H'. destruct (runs s) as [|x [|]] eqn:ER; [destruct n; discriminate| |destruct H'].
    destruct n as [|[|n]]; try discriminate. injection EN as ->. destruct H' as [HP IP]. cbn [option_map] in HP. unfold curof in HP. cbn [r_i r_k] in HP.
    destruct ok.
    + match goal with |- context [for_loop ncb ?t i (S k) pb] => set (s1 := t) end.
      assert (E1 : runs s1 = runs s /\ log s1 = log s /\ aborted s1 = aborted s /\ sched s1 = sched s /\ inprog s1 = inprog s).
      { subst s1. match goal with |- context [if ?c then _ else _] => destruct c end; simpl; auto. }
      destruct E1 as (E1 & E2 & E3 & E4 & E5). assert (Fr := for_frame s1 i (S k) pb).
      assert (X : after (fst (for_loop ncb s1 i (S k) pb)) (snd (for_loop ncb s1 i (S k) pb))).
      { apply for_P; [congruence|]. rewrite E2, E3, E4. eapply P_heap; eauto. }
      destruct (for_loop ncb s1 i (S k) pb) as [t r]. cbn [fst snd] in *. apply replace_inv; auto. destruct Fr as (_ & _ & _ & -> & _). now rewrite E1, ER.
    + apply replace_inv; [now rewrite ER|]. split; auto.
  - assert (H' := H). unfold inv in *. cbn [set_aborted runs]. destruct (runs s) as [|x [|]]; auto; destruct H' as [HP IP]; split; auto; cbn [set_aborted log aborted sched heap]; eapply P_abort; eauto.
Qed.
Lemma inv_init : forall h, inv (r_init h).
Proof.
  intros h. split; auto. exists []. cbn. split; auto. split; [constructor|]. split; [constructor|]. split; [auto|]. split; [|split; discriminate].
  intros pre k i x post E. destruct pre; discriminate.
Qed.
Lemma exec_inv : forall es s, inv s -> inv (rep_exec ncb s es).
Proof. induction es; simpl; auto. intros. apply IHes. now apply step_inv. Qed.

(** iLastReported is the individual scheduled last *)
Definition last_inv (s : rep) : Prop := lastrep s = last_opt (scheds (log s)).
Lemma scheds_snoc : forall l e, (forall i, e <> ESched i) -> scheds (l ++ [e]) = scheds l.
Proof. intros l e H. rewrite scheds_app. destruct e; simpl; rewrite ?app_nil_r; auto. now destruct (H i). Qed.
Lemma while_scheds : forall s ip pb, scheds (log (fst (while_loop ncb s ip pb))) = scheds (log s).
Proof.
  intros. unfold while_loop, call_cb. destruct (aborted s); auto. destruct (sched s); auto. cbv zeta. destruct (_ && _); auto.
  destruct (ncb =? 0); auto. cbn [fst emit log set_sched]. apply scheds_snoc. discriminate.
Qed.
Lemma for_scheds : forall s i k pb, scheds (log (fst (for_loop ncb s i k pb))) = scheds (log s).
Proof.
  intros. unfold for_loop. destruct (aborted s); [apply while_scheds|]. destruct (k <? ncb); [|apply while_scheds]. cbn [call_cb fst emit log]. apply scheds_snoc. discriminate.
Qed.
Lemma runcb_scheds : forall s i pb, scheds (log (run_callbacks ncb s i pb)) = scheds (log s) ++ [i].
Proof.
  intros. unfold run_callbacks. cbv zeta. destruct (inprog _); [simpl; now rewrite scheds_app|].
  match goal with |- context [while_loop ncb ?x ?y ?z] => assert (W := while_scheds x y z); destruct (while_loop ncb x y z) as [t [r|]] end;
    cbn [fst set_runs log] in *; rewrite W; simpl; now rewrite scheds_app.
Qed.
Lemma newbest_last : forall s i f, last_inv s -> last_inv (new_best ncb s i f).
Proof.
  intros s i f H. unfold new_best. cbv zeta.
  match goal with |- context [if ?c then set_best s (Some i) else s] => set (s1 := if c then set_best s (Some i) else s) end.
  assert (H1 : last_inv s1). { subst s1. match goal with |- last_inv (if ?c then _ else _) => destruct c end; auto. }
  match goal with |- context [if ?c then run_callbacks _ _ _ _ else _] => destruct c end; auto.
  unfold last_inv. rewrite runcb_scheds, last_opt_snoc. destruct (runcb_frame (set_lastrep s1 (Some i)) i (best (set_lastrep s1 (Some i)))) as (_ & _ & -> & _). reflexivity.
Qed.
Lemma step_last : forall s e, last_inv s -> last_inv (rep_step ncb s e).
Proof.
  intros s [i o np f|n r|n ok|] H; cbn [rep_step]; auto.
  - assert (N := newbest_last s i f H). unfold rep_call. destruct o as [o|].
    + destruct (msg_ratio (heap s o) (heap s i) "!"). destruct (match best s with None => _ | Some _ => _ end); auto.
    + destruct (negb _); auto. destruct (best s); auto. destruct (_ || _); auto.
  - destruct (nth_error (runs s) n) as [[i k pb []]|]; auto. unfold last_inv in *. destruct r.
    + assert (A := for_scheds s i (S k) pb). destruct (for_frame s i (S k) pb) as (_ & _ & B & _). destruct (for_loop ncb s i (S k) pb). simpl in *. congruence.
    + destruct (_ && _); [simpl; rewrite scheds_snoc; [auto|discriminate]|].
      assert (A := for_scheds s i (S k) pb). destruct (for_frame s i (S k) pb) as (_ & _ & B & _). destruct (for_loop ncb s i (S k) pb). simpl in *. congruence.
    + assert (A := while_scheds (set_aborted s true) (Some i) pb). destruct (while_frame (set_aborted s true) (Some i) pb) as (_ & _ & B & _). destruct (while_loop ncb (set_aborted s true) (Some i) pb). simpl in *. congruence.
  - destruct (nth_error (runs s) n) as [[i k pb []]|]; auto. unfold last_inv in *. destruct ok; [|exact H].
    match goal with |- context [for_loop ncb ?t i (S k) pb] => set (s1 := t) end.
    assert (E1 : lastrep s1 = lastrep s /\ log s1 = log s) by (subst s1; match goal with |- context [if ?c then _ else _] => destruct c end; simpl; auto).
    destruct E1 as [E1 E2].
    assert (A := for_scheds s1 i (S k) pb). destruct (for_frame s1 i (S k) pb) as (_ & _ & B & _). destruct (for_loop ncb s1 i (S k) pb). simpl in *. congruence.
Qed.
Lemma exec_last : forall es s, last_inv s -> last_inv (rep_exec ncb s es).
Proof. induction es; simpl; auto. intros. apply IHes. now apply step_last. Qed.

(** a dead run blocks everything *)
Definition dead_inv (s : rep) : Prop := inprog s = true /\ match runs s with [mkRun _ _ _ PDead] => True | _ => False end.
Lemma newbest_dead : forall s i f, dead_inv s -> dead_inv (new_best ncb s i f) /\ calls (log (new_best ncb s i f)) = calls (log s).
Proof.
  intros s i f [A B]. unfold new_best. cbv zeta.
  match goal with |- context [if ?c then set_best s (Some i) else s] => set (s1 := if c then set_best s (Some i) else s) end.
  assert (H1 : inprog s1 = true /\ runs s1 = runs s /\ log s1 = log s) by (subst s1; match goal with |- context [if ?c then set_best _ _ else _] => destruct c end; auto).
  destruct H1 as (H1 & H2 & H3). match goal with |- context [if ?c then run_callbacks _ _ _ _ else _] => destruct c end.
  - unfold run_callbacks. cbv zeta. cbn [emit set_sched set_lastrep inprog]. rewrite H1. unfold dead_inv. cbn [emit set_sched set_lastrep inprog runs log]. rewrite H2, H3, calls_app. simpl. rewrite app_nil_r. auto.
  - unfold dead_inv. rewrite H2, H3. auto.
Qed.
Lemma step_dead : forall s e, dead_inv s -> dead_inv (rep_step ncb s e) /\ calls (log (rep_step ncb s e)) = calls (log s).
Proof.
  intros s [i o np f|n r|n ok|] H; cbn [rep_step]; auto.
  - assert (N := newbest_dead s i f H). unfold rep_call. destruct o as [o|].
    + destruct (msg_ratio (heap s o) (heap s i) "!"). destruct (match best s with None => _ | Some _ => _ end); auto.
    + destruct (negb _); auto. destruct (best s); auto. destruct (_ || _); auto.
  - assert (H' := H). destruct H' as [_ B]. destruct (runs s) as [|[a b c []] [|]]; try contradiction. destruct n as [|[|]]; simpl; auto.
  - assert (H' := H). destruct H' as [_ B]. destruct (runs s) as [|[a b c []] [|]]; try contradiction. destruct n as [|[|]]; simpl; auto.
Qed.
Lemma exec_dead : forall es s, dead_inv s -> dead_inv (rep_exec ncb s es) /\ calls (log (rep_exec ncb s es)) = calls (log s).
Proof. induction es; simpl; auto. intros. destruct (step_dead s a H) as [A B]. destruct (IHes _ A). split; auto. congruence. Qed.
End R.
