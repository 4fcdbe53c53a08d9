(** * C115: the example programs *)
From Coq Require Import String Ascii List Bool ZArith Lia.
From Verif Require Import Flt Py RunnerModel.
Import ListNotations.

(** ** The queue *)
(** the calls that went to the queue, and how often it was told to shut down *)
Definition sent (l : list qeff) : list (list f64 * option f64) := flat_map (fun e => match e with QCall v x => [(v, x)] | _ => [] end) l.
Definition shuts (l : list qeff) : nat := length (filter (fun e => match e with QShut => true | _ => false end) l).
(** the evaluations asked for *)
Definition asked (x : example) (es : list rnev) : list (list f64 * option f64) :=
  flat_map (fun e => match e with RnEval (Some v) s => [(v, match x with Thermistor => s | Voc => None end)] | _ => [] end) es.
(** the requests to shut down: in the battery example an evaluation of None is one *)
Definition stops (x : example) (es : list rnev) : nat :=
  length (filter (fun e => match e with RnShut => true | RnEval None _ => match x with Voc => true | Thermistor => false end | _ => false end) es).

Lemma sent_app : forall a b, sent (a ++ b) = sent a ++ sent b. Proof. intros. apply flat_map_app. Qed.
Lemma shuts_app : forall a b, shuts (a ++ b) = shuts a + shuts b. Proof. intros. unfold shuts. rewrite filter_app, app_length. reflexivity. Qed.
Lemma asked_app : forall x a b, asked x (a ++ b) = asked x a ++ asked x b. Proof. intros. apply flat_map_app. Qed.
Lemma stops_app : forall x a b, stops x (a ++ b) = stops x a + stops x b. Proof. intros. unfold stops. rewrite filter_app, app_length. reflexivity. Qed.
Lemma exec_snoc : forall x r es e, rn_exec x r (es ++ [e]) = rn_step x (rn_exec x r es) e. Proof. intros. unfold rn_exec. now rewrite fold_left_app. Qed.
Lemma gone_step : forall x r e, rn_q r = false -> rn_q (rn_step x r e) = false /\ sent (rn_log (rn_step x r e)) = sent (rn_log r) /\ shuts (rn_log (rn_step x r e)) = shuts (rn_log r) /\
  (length (rn_wait (rn_step x r e)) = length (rn_wait r)).
Proof.
  intros x r e H. destruct e as [[v|] s| |k ok]; cbn [rn_step rn_evaluate rn_shutdown].
  - rewrite H. auto.
  - destruct x; cbn [fst]; auto. unfold rn_shutdown. rewrite H. auto.
  - unfold rn_shutdown. rewrite H. auto.
  - unfold rn_done. destruct (nth_error (rn_wait r) k) as [[]|]; auto. destruct ok; cbn [rn_q rn_log rn_wait]; rewrite upd_length; auto.
    rewrite sent_app, shuts_app. cbn. rewrite app_nil_r. auto.
Qed.
Lemma gone_exec : forall x es r, rn_q r = false -> rn_q (rn_exec x r es) = false /\ sent (rn_log (rn_exec x r es)) = sent (rn_log r) /\ shuts (rn_log (rn_exec x r es)) = shuts (rn_log r).
Proof.
  intros x. induction es as [|e es IH]; intros r H; [auto|]. destruct (gone_step x r e H) as (A & B & C & _). cbn [rn_exec fold_left].
  destruct (IH _ A) as (D & E & F). unfold rn_exec in *. rewrite D, E, F. auto.
Qed.
Lemma queue_waits : forall x es, length (rn_wait (rn_exec x rn_init es)) = shuts (rn_log (rn_exec x rn_init es)).
Proof.
  intros x es. induction es as [|e es IH] using rev_ind; [reflexivity|]. rewrite exec_snoc. set (r := rn_exec x rn_init es) in *.
  assert (SH : length (rn_wait (rn_shutdown r)) = shuts (rn_log (rn_shutdown r))).
  { unfold rn_shutdown. destruct (rn_q r); auto. cbn [rn_wait rn_log]. rewrite app_length, shuts_app, IH. reflexivity. }
  destruct e as [[v|] s| |j ok]; cbn [rn_step rn_evaluate]; auto.
  - destruct (rn_q r); cbn [fst rn_wait rn_log]; auto. rewrite shuts_app, IH. cbn. lia.
  - destruct x; cbn [fst]; auto.
  - unfold rn_done. destruct (nth_error (rn_wait r) j) as [[]|]; auto. destruct ok; cbn [rn_wait rn_log]; rewrite upd_length, ?shuts_app; cbn; lia.
Qed.
(** as long as there is the queue every evaluation goes to it, in order and with
    the values asked for, and every shutdown tells it to shut down; the first
    shutdown that is done ends this, and nothing goes to the queue any more *)
Theorem C115_queue : forall x es, exists es1 es2, es = es1 ++ es2 /\
  sent (rn_log (rn_exec x rn_init es)) = asked x es1 /\ shuts (rn_log (rn_exec x rn_init es)) = stops x es1 /\
  (rn_q (rn_exec x rn_init es) = true -> es2 = []) /\
  (rn_q (rn_exec x rn_init es) = false -> exists es0 k, es1 = es0 ++ [RnDone k true] /\ k < stops x es0 /\ rn_q (rn_exec x rn_init es0) = true).
Proof.
  intros x es. 
  enough (G : length (rn_wait (rn_exec x rn_init es)) = shuts (rn_log (rn_exec x rn_init es)) /\ exists es1 es2, es = es1 ++ es2 /\
  sent (rn_log (rn_exec x rn_init es)) = asked x es1 /\ shuts (rn_log (rn_exec x rn_init es)) = stops x es1 /\
  (rn_q (rn_exec x rn_init es) = true -> es2 = []) /\
  (rn_q (rn_exec x rn_init es) = false -> exists es0 k, es1 = es0 ++ [RnDone k true] /\ k < stops x es0 /\ rn_q (rn_exec x rn_init es0) = true)) by tauto.
  induction es as [|e es IH] using rev_ind; [split; [reflexivity|]; exists [], []; repeat split; auto; intros; discriminate|].
  destruct IH as (L & es1 & es2 & E & S & T & Q1 & Q2). rewrite exec_snoc. set (r := rn_exec x rn_init es) in *.
  destruct (rn_q r) eqn:Hq.
  - rewrite (Q1 eq_refl), app_nil_r in E. subst es1.
    assert (K : forall r', rn_wait r' = rn_wait r -> rn_q r' = true -> sent (rn_log r') = sent (rn_log r) ++ asked x [e] -> shuts (rn_log r') = shuts (rn_log r) -> stops x [e] = 0 ->
      length (rn_wait r') = shuts (rn_log r') /\ exists es1 es2, es ++ [e] = es1 ++ es2 /\ sent (rn_log r') = asked x es1 /\ shuts (rn_log r') = stops x es1 /\ (rn_q r' = true -> es2 = []) /\
      (rn_q r' = false -> exists es0 k, es1 = es0 ++ [RnDone k true] /\ k < stops x es0 /\ rn_q (rn_exec x rn_init es0) = true)).
    { intros r' A B C D F. split; [congruence|]. exists (es ++ [e]), []. rewrite app_nil_r, asked_app, stops_app, <- S, <- T, F. repeat split; auto; [lia|congruence]. }
    assert (SH : stops x [e] = 1 -> asked x [e] = [] ->
      length (rn_wait (rn_shutdown r)) = shuts (rn_log (rn_shutdown r)) /\ exists es1 es2, es ++ [e] = es1 ++ es2 /\ sent (rn_log (rn_shutdown r)) = asked x es1 /\ shuts (rn_log (rn_shutdown r)) = stops x es1 /\ (rn_q (rn_shutdown r) = true -> es2 = []) /\
      (rn_q (rn_shutdown r) = false -> exists es0 k, es1 = es0 ++ [RnDone k true] /\ k < stops x es0 /\ rn_q (rn_exec x rn_init es0) = true)).
    { intros A B. unfold rn_shutdown. rewrite Hq. cbn [rn_wait rn_log rn_q]. rewrite app_length, shuts_app, sent_app. cbn [length]. split; [rewrite L; reflexivity|].
      exists (es ++ [e]), []. rewrite app_nil_r, asked_app, stops_app, <- S, <- T, A, B. repeat split; auto. discriminate. }
    destruct e as [[v|] s| |k ok]; cbn [rn_step].
    + apply K; cbn [rn_evaluate]; rewrite ?Hq; cbn [fst rn_wait rn_q rn_log]; auto; rewrite ?sent_app, ?shuts_app; cbn; auto; lia.
    + cbn [rn_evaluate]. destruct x; cbn [fst]; [apply K; auto; cbn; now rewrite app_nil_r|]. apply SH; reflexivity.
    + apply SH; reflexivity.
    + unfold rn_done. destruct (nth_error (rn_wait r) k) as [[]|] eqn:Ek; try (apply K; auto; cbn; now rewrite app_nil_r). destruct ok.
      * cbn [rn_wait rn_log rn_q]. rewrite upd_length, sent_app, shuts_app. cbn [length]. split; [rewrite L; cbn; lia|]. exists (es ++ [RnDone k true]), [].
        rewrite app_nil_r, asked_app, stops_app, <- S, <- T. cbn. rewrite app_nil_r. repeat split; auto. intros _. exists es, k. split; auto. split; auto.
        rewrite <- T, <- L. apply nth_error_Some. congruence.
      * assert (W : length (rn_wait (mkRn (rn_q r) (upd k false (rn_wait r)) (rn_log r))) = length (rn_wait r)) by apply upd_length.
        split; [rewrite W; exact L|]. exists (es ++ [RnDone k false]), []. rewrite app_nil_r, asked_app, stops_app. cbn [rn_log rn_q]. rewrite <- S, <- T. cbn. rewrite app_nil_r. repeat split; auto; congruence.
  - destruct (gone_step x r e Hq) as (A & B & C & D). rewrite A, B, C. split; [congruence|]. exists es1, (es2 ++ [e]). rewrite E, app_assoc. repeat split; auto; discriminate.
Qed.
Lemma waits : forall x es k, (forall ok, ~ In (RnDone k ok) es) -> k < length (rn_wait (rn_exec x rn_init es)) -> nth_error (rn_wait (rn_exec x rn_init es)) k = Some true.
Proof.
  intros x es k. induction es as [|e es IH] using rev_ind; intros N L; [cbn in L; lia|]. rewrite exec_snoc in *.
  assert (N' : forall ok, ~ In (RnDone k ok) es) by (intros ok C; apply (N ok); apply in_or_app; auto). specialize (IH N'). set (r := rn_exec x rn_init es) in *.
  assert (SH : k < length (rn_wait (rn_shutdown r)) -> nth_error (rn_wait (rn_shutdown r)) k = Some true).
  { unfold rn_shutdown. destruct (rn_q r); auto. cbn [rn_wait]. rewrite app_length. cbn [length]. intros H.
    destruct (Nat.lt_ge_cases k (length (rn_wait r))); [rewrite nth_error_app1; auto|]. rewrite nth_error_app2 by auto. replace (k - length (rn_wait r)) with 0 by lia. reflexivity. }
  destruct e as [[v|] s| |j ok]; cbn [rn_step rn_evaluate] in *; auto.
  - destruct (rn_q r); cbn [fst rn_wait] in *; auto.
  - destruct x; cbn [fst] in *; auto.
  - assert (j <> k) by (intros ->; apply (N ok); apply in_or_app; right; now left).
    unfold rn_done in *. destruct (nth_error (rn_wait r) j) as [[]|]; auto. destruct ok; cbn [rn_wait] in *; rewrite upd_length in L; rewrite upd_other by congruence; auto.
Qed.
(** once any shutdown that was asked for is done, nothing more goes to the queue *)
Theorem C115_gone : forall x es1 k es2, k < stops x es1 -> (forall ok, ~ In (RnDone k ok) es1) ->
  let r := rn_exec x rn_init (es1 ++ RnDone k true :: es2) in
  rn_q r = false /\ sent (rn_log r) = sent (rn_log (rn_exec x rn_init es1)) /\ shuts (rn_log r) = shuts (rn_log (rn_exec x rn_init es1)).
Proof.
  intros x es1 k es2 Hk N. cbv zeta. replace (es1 ++ RnDone k true :: es2) with ((es1 ++ [RnDone k true]) ++ es2) by now rewrite <- app_assoc.
  unfold rn_exec at 1 2 4. rewrite fold_left_app. fold (rn_exec x rn_init (es1 ++ [RnDone k true])). rewrite exec_snoc. set (r := rn_exec x rn_init es1) in *.
  assert (G : rn_q (rn_step x r (RnDone k true)) = false /\ sent (rn_log (rn_step x r (RnDone k true))) = sent (rn_log r) /\ shuts (rn_log (rn_step x r (RnDone k true))) = shuts (rn_log r)).
  { destruct (rn_q r) eqn:Hq; [|destruct (gone_step x r (RnDone k true) Hq) as (A & B & C & _); auto].
    assert (L : k < length (rn_wait r)).
    { unfold r. destruct (C115_queue x es1) as (l1 & l2 & E & _ & T & Q & _). fold r in T, Q. rewrite (Q Hq), app_nil_r in E. subst l1.
      rewrite queue_waits. fold r. rewrite T. exact Hk. }
    cbn [rn_step]. unfold rn_done. unfold r in *. rewrite (waits x es1 k N L). cbn [rn_q rn_log]. rewrite sent_app, shuts_app. cbn. rewrite app_nil_r. auto. }
  destruct G as (A & B & C). fold (rn_exec x (rn_step x r (RnDone k true)) es2). destruct (gone_exec x es2 _ A) as (D & E & F). rewrite D, E, F. auto.
Qed.
(** an evaluation after that is answered with None, which is not an SSE *)
Theorem C115_none : forall x es v s, rn_q (rn_exec x rn_init es) = false -> rn_evaluate x (rn_exec x rn_init es) (Some v) s = (rn_exec x rn_init es, RNone).
Proof. intros x es v s H. unfold rn_evaluate. now rewrite H. Qed.
(** "Repeated calls have no effect", as the comment says, once a shutdown is done *)
Theorem C115_repeated : forall x es1 es2, rn_q (rn_exec x rn_init es1) = false -> (forall k, ~ In (RnDone k true) es2) -> rn_log (rn_exec x rn_init (es1 ++ es2)) = rn_log (rn_exec x rn_init es1).
Proof.
  intros x es1 es2 H N. unfold rn_exec at 1. rewrite fold_left_app. fold (rn_exec x rn_init es1). revert H N. generalize (rn_exec x rn_init es1). clear es1.
  induction es2 as [|e es2 IH]; intros r H N; [reflexivity|]. cbn [fold_left]. rewrite IH.
  - destruct e as [[v|] s| |k ok]; cbn [rn_step rn_evaluate]; unfold rn_shutdown; rewrite ?H; auto; [destruct x; cbn [fst]; rewrite ?H; auto|].
    unfold rn_done. destruct (nth_error _ _) as [[]|]; auto. destruct ok; auto. destruct (N k). now left.
  - now apply gone_step.
  - intros k C. apply (N k). now right.
Qed.
(** before that they have: both tell the queue to shut down *)
Theorem C115_repeated_refuted : ~ forall x es1 es2, 0 < stops x es1 -> shuts (rn_log (rn_exec x rn_init (es1 ++ es2))) = shuts (rn_log (rn_exec x rn_init es1)).
Proof. intros C. specialize (C Voc [RnEval None None] [RnShut] ltac:(cbn; lia)). vm_compute in C. discriminate C. Qed.
(** and evaluations still go to a queue that is shutting down *)
Theorem C115_late_refuted : ~ forall x es1 es2, 0 < stops x es1 -> sent (rn_log (rn_exec x rn_init (es1 ++ es2))) = sent (rn_log (rn_exec x rn_init es1)).
Proof. intros C. specialize (C Thermistor [RnShut] [RnEval (Some []) None] ltac:(cbn; lia)). vm_compute in C. discriminate C. Qed.
Definition rn_es : list rnev := [RnEval (Some [fone]) None; RnEval (Some [fzero; fone]) (Some fone); RnEval None None; RnEval (Some [fone]) None; RnShut; RnDone 0 true; RnEval (Some [fone]) None; RnShut; RnDone 1 true].
Example C115_gone_case : 0 < stops Thermistor (firstn 5 rn_es) /\ (forall ok, ~ In (RnDone 0 ok) (firstn 5 rn_es)) /\ rn_es = firstn 5 rn_es ++ RnDone 0 true :: skipn 6 rn_es.
Proof. split; [cbn; lia|]. split; [|reflexivity]. intros ok C. cbn in C. repeat (destruct C as [C|C]; [discriminate C|]). exact C. Qed.
Example C115_queue_nonvacuous :
  (map (fun x => length (fst x)) (sent (rn_log (rn_exec Voc rn_init rn_es))), shuts (rn_log (rn_exec Voc rn_init rn_es)), rn_q (rn_exec Voc rn_init rn_es)) = ([1; 2; 1], 2, false) /\
  (map (fun x => length (fst x)) (sent (rn_log (rn_exec Thermistor rn_init rn_es))), shuts (rn_log (rn_exec Thermistor rn_init rn_es)), rn_q (rn_exec Thermistor rn_init rn_es)) = ([1; 2; 1], 1, false) /\
  map (fun x => match snd x with Some _ => true | None => false end) (sent (rn_log (rn_exec Thermistor rn_init rn_es))) = [false; true; false] /\
  map (fun x => match snd x with Some _ => true | None => false end) (sent (rn_log (rn_exec Voc rn_init rn_es))) = [false; false; false].
Proof. repeat split; vm_compute; reflexivity. Qed.
Print Assumptions C115_queue.
Print Assumptions C115_gone.
Print Assumptions C115_none.
Print Assumptions C115_repeated.
Print Assumptions C115_repeated_refuted.
Print Assumptions C115_late_refuted.

(** ** The programs *)
Lemma fst_andthen : forall a b e, In e (fst (andthen a b)) <-> In e (fst a) \/ (snd a = true /\ In e (fst b)).
Proof. intros [la []] b e; unfold andthen; cbn [fst snd]; [rewrite in_app_iff; tauto|]. split; [auto|]. intros [H|[H _]]; [auto|discriminate]. Qed.
Lemma snd_andthen : forall a b, snd (andthen a b) = snd a && snd b.
Proof. intros [la []] b; reflexivity. Qed.
(** everything the program needs for getting to its end *)
Definition all_well (x : example) (a : eargs) (w : world) : Prop :=
  ea_h a = false /\ w_init w = true /\ w_data w = true /\ w_pop w = true /\ w_cb w = true /\
  (exists F, map (w_float w) (split_comma (ea_F a)) = map Some F) /\
  fltb (ea_C a) fzero = false /\ fltb fone (ea_C a) = false /\
  (w_running w = Some false \/ (2 <= length (split_comma (ea_F a)) /\ w_run w = true)) /\
  w_shut w = true /\ (x = Thermistor -> 2 <= String.length (ea_P a) -> w_save w = true) /\ w_show w = true.
Lemma floats_spec : forall f l F, floats f l = Some F <-> map f l = map Some F.
Proof.
  intros f. induction l as [|s l IH]; intros F; cbn [floats map].
  - destruct F; split; intros H; try discriminate; auto.
  - destruct F as [|y F]; cbn [map].
    + destruct (f s), (floats f l); split; intros H; discriminate.
    + destruct (f s) as [z|]; [|split; intros H; discriminate]. destruct (floats f l) as [r|] eqn:E.
      * split; intros H; [injection H as -> ->|injection H as -> H]; [f_equal; now apply IH|]. apply IH in H. injection H as ->. reflexivity.
      * split; intros H; [discriminate|]. injection H as -> H. apply IH in H. discriminate H.
Qed.
Lemma in_run : forall x a w e, In e (runner_run x a w) <-> In e (fst (runner_call x a w)) \/ (snd (runner_call x a w) = false /\ e = XOops).
Proof.
  intros x a w e. unfold runner_run. cbv zeta. destruct (snd (runner_call x a w)); [split; [auto|intros [H|[H _]]; [auto|discriminate]]|].
  rewrite in_app_iff. split; [intros [H|[<-|[]]]; auto|]. intros [H|[_ ->]]; auto. right. now left.
Qed.
Lemma in_main : forall x a w e, In e (main x a w) <-> ea_h a = false /\ (In e (fst (runner_init x a w)) \/ (w_init w = true /\ In e (runner_run x a w))).
Proof.
  intros x a w e. unfold main. cbv zeta. destruct (ea_h a); [split; [intros []|intros [H _]; discriminate]|]. cbn [snd runner_init].
  destruct (w_init w); [rewrite in_app_iff; tauto|]. split; [auto|]. intros [_ [H|[H _]]]; [auto|discriminate].
Qed.
(** the program comes to its end exactly if everything goes well; whether setup
    of the population did does not matter *)
Theorem C115_stops : forall x a w, In XStop (main x a w) <-> all_well x a w.
Proof.
  intros x a w. rewrite in_main, in_run. unfold all_well. cbn [runner_init fst In].
  assert (NI : ~ (XWorkers (if Z.eqb (ea_N a) 0 then Z.sub (w_cores w) 1 else ea_N a) = XStop \/
    XLog (if ea_l a then Some (match x with Thermistor => "thermistor.log" | Voc => "voc.log" end)%string else None) = XStop \/ False)) by (intros [H|[H|[]]]; discriminate).
  unfold runner_call. destruct (ea_h a); [split; [intros [H _]; discriminate|intros (H & _); discriminate]|].
  destruct (w_init w); [|split; [intros (_ & [H|[H _]]); [tauto|discriminate]|intros (_ & H & _); discriminate]].
  destruct (w_data w); [|split; [intros (_ & [H|(_ & [H|[_ H]])]); [tauto| |discriminate]; cbn in H; destruct H as [H|[H|[]]]; discriminate|intros (_ & _ & H & _); discriminate]].
  destruct (w_pop w); [|split; [intros (_ & [H|(_ & [H|[_ H]])]); [tauto| |discriminate]; cbn in H; destruct H as [H|[H|[]]]; discriminate|intros (_ & _ & _ & H & _); discriminate]].
  assert (CL : forall b c, In XStop (fst (andthen b c)) -> (~ In XStop (fst b)) -> snd b = true /\ In XStop (fst c)) by (intros b c H N; apply fst_andthen in H; destruct H; [contradiction|auto]).
  split.
  - intros (_ & [H|(_ & [H|[_ H]])]); [tauto| |discriminate].
    apply CL in H; [|intros [C|[]]; discriminate]. destruct H as [_ H]. apply CL in H; [|intros [C|[]]; discriminate]. destruct H as [_ H].
    apply CL in H; [|destruct (w_setup w); cbn; intros C; repeat (destruct C as [C|C]; try discriminate); auto]. destruct H as [_ H].
    apply CL in H; [|intros [C|[]]; discriminate]. cbn [snd try] in H. destruct H as [Hcb H].
    destruct (floats (w_float w) (split_comma (ea_F a))) as [F|] eqn:EF; [|destruct H]. apply floats_spec in EF.
    apply CL in H; [|intros [C|[]]; discriminate]. cbn [snd try] in H. destruct H as [Hcr H]. unfold cr_ok in Hcr. apply negb_true_iff, orb_false_iff in Hcr.
    apply CL in H; [|unfold de_call; destruct (w_running w) as [[]|]; try destruct (fman_ok F); cbn; intros C; repeat (destruct C as [C|C]; try discriminate); auto]. destruct H as [Hde H].
    apply CL in H; [|intros [C|[]]; discriminate]. cbn [snd try] in H. destruct H as [Hsh H].
    apply CL in H; [|destruct x; [destruct (Nat.ltb 1 (String.length (ea_P a)))|]; cbn; intros C; repeat (destruct C as [C|C]; try discriminate); auto]. destruct H as [Hsv H].
    apply CL in H; [|intros [C|[]]; discriminate]. cbn [snd try] in H. destruct H as [Hs _].
    do 5 (split; [auto|]). split; [eauto|]. split; [tauto|]. split; [tauto|]. split.
    { assert (LF : length (split_comma (ea_F a)) = length F) by (rewrite <- (map_length (w_float w)), EF; apply map_length).
      unfold de_call in Hde. destruct (w_running w) as [[]|]; auto; right; rewrite LF; destruct F as [|y [|z F]]; cbn in Hde |- *; try discriminate; split; auto; lia. }
    split; [auto|]. split; [|auto]. intros -> HL. destruct (Nat.ltb_spec 1 (String.length (ea_P a))); [exact Hsv|lia].
  - intros (_ & _ & _ & _ & Hcb & [F HF] & C1 & C2 & Hde & Hsh & Hsv & Hs). split; auto. right. split; auto. left.
    rewrite !fst_andthen. rewrite Hcb. right. split; auto. right. split; auto. right. split; auto. right. split; auto.
    assert (LF : length (split_comma (ea_F a)) = length F) by (rewrite <- (map_length (w_float w)), HF; apply map_length). apply floats_spec in HF. rewrite HF, !fst_andthen.
    right. split; [unfold cr_ok; cbn [snd try]; rewrite C1, C2; reflexivity|]. right. split.
    { unfold de_call. destruct Hde as [->|[G1 G2]]; [reflexivity|]. rewrite LF in G1. destruct F as [|y [|z F]]; cbn in G1; try lia. destruct (w_running w) as [[]|]; cbn; auto. }
    right. split; [exact Hsh|]. right. split.
    { destruct x; auto. destruct (Nat.ltb_spec 1 (String.length (ea_P a))); auto. }
    right. split; [exact Hs|]. destruct x; cbn; auto.
Qed.
Print Assumptions C115_stops.

(** what Runner.__call__ does, and when *)
Lemma runner_in : forall x a w e, In e (fst (runner_call x a w)) <->
  e = XData \/ (w_data w = false /\ e = XOops) \/
  (w_data w = true /\ (e = XPopulation (ea_p a) (match x with Thermistor => Some f0005 | Voc => None end) \/
  (w_pop w = true /\ (e = XSetup false \/ (w_setup w = false /\ e = XOops) \/ e = XCallback \/
  (w_cb w = true /\ exists F, floats (w_float w) (split_comma (ea_F a)) = Some F /\ (e = XDE (de_kw x a F) \/
  (cr_ok (ea_C a) = true /\ ((w_running w <> Some false /\ fman_ok F = true /\ e = XRun) \/
  ((w_running w = Some false \/ (fman_ok F = true /\ w_run w = true)) /\ (e = XShutdown \/
  (w_shut w = true /\ ((x = Thermistor /\ 2 <= String.length (ea_P a) /\ e = XSave (ea_P a)) \/
  ((x = Thermistor -> 2 <= String.length (ea_P a) -> w_save w = true) /\ (e = XFinal \/
  (w_show w = true /\ (e = XElapsed \/ e = XStop \/ (x = Voc /\ e = XLogOff))))))))))))))))).
Proof.
  intros x a w e. unfold runner_call. rewrite fst_andthen. cbn [fst snd try In].
  assert (SY : forall y : eff, (y = e \/ False) <-> e = y) by (intros y; intuition congruence).
  rewrite SY. apply or_iff_compat_l. destruct (w_data w); [|cbn [fst In]; rewrite SY; intuition congruence].
  transitivity (In e (fst (andthen (try (XPopulation (ea_p a) (match x with Thermistor => Some f0005 | Voc => None end)) (w_pop w))
    (andthen (XSetup false :: (if w_setup w then [] else [XOops]), true)
    (andthen (try XCallback (w_cb w))
    (match floats (w_float w) (split_comma (ea_F a)) with
     | None => ([], false)
     | Some F =>
       andthen (try (XDE (de_kw x a F)) (cr_ok (ea_C a)))
       (andthen (de_call w F)
       (andthen (try XShutdown (w_shut w))
       (andthen (match x with
                 | Thermistor => if (1 <? String.length (ea_P a))%nat then try (XSave (ea_P a)) (w_save w) else ([], true)
                 | Voc => ([], true) end)
       (andthen (try XFinal (w_show w))
       (match x with Thermistor => [XElapsed; XStop] | Voc => [XElapsed; XLogOff; XStop] end, true)))))
     end)))))); [tauto|].
  rewrite fst_andthen. cbn [fst snd try In]. rewrite SY. transitivity (e = XPopulation (ea_p a) (match x with Thermistor => Some f0005 | Voc => None end) \/
  (w_pop w = true /\ (e = XSetup false \/ (w_setup w = false /\ e = XOops) \/ e = XCallback \/
  (w_cb w = true /\ exists F, floats (w_float w) (split_comma (ea_F a)) = Some F /\ (e = XDE (de_kw x a F) \/
  (cr_ok (ea_C a) = true /\ ((w_running w <> Some false /\ fman_ok F = true /\ e = XRun) \/
  ((w_running w = Some false \/ (fman_ok F = true /\ w_run w = true)) /\ (e = XShutdown \/
  (w_shut w = true /\ ((x = Thermistor /\ 2 <= String.length (ea_P a) /\ e = XSave (ea_P a)) \/
  ((x = Thermistor -> 2 <= String.length (ea_P a) -> w_save w = true) /\ (e = XFinal \/
  (w_show w = true /\ (e = XElapsed \/ e = XStop \/ (x = Voc /\ e = XLogOff)))))))))))))))); [|intuition congruence].
  apply or_iff_compat_l, and_iff_compat_l. rewrite fst_andthen. cbn [fst snd In].
  assert (S1 : (XSetup false = e \/ In e (if w_setup w then [] else [XOops])) <-> (e = XSetup false \/ (w_setup w = false /\ e = XOops))).
  { destruct (w_setup w); cbn [In]; intuition congruence. }
  rewrite S1, fst_andthen. cbn [fst snd try In]. rewrite SY.
  destruct (floats (w_float w) (split_comma (ea_F a))) as [F|].
  2:{ cbn [fst In]. split; [intuition|]. intros [H|[H|[H|(_ & F & H & _)]]]; [auto|auto|auto|discriminate]. }
  assert (E1 : forall P : list f64 -> Prop, (exists G, Some F = Some G /\ P G) <-> P F) by (intros P; split; [intros (G & [= <-] & H); auto|eauto]). rewrite E1.
  rewrite fst_andthen. cbn [fst snd try In]. rewrite SY.
  assert (S2 : In e (fst (de_call w F)) <-> (w_running w <> Some false /\ fman_ok F = true /\ e = XRun)).
  { unfold de_call. destruct (w_running w) as [[]|]; try destruct (fman_ok F); cbn [fst try In]; intuition congruence. }
  assert (S3 : snd (de_call w F) = true <-> (w_running w = Some false \/ (fman_ok F = true /\ w_run w = true))).
  { unfold de_call. destruct (w_running w) as [[]|]; try destruct (fman_ok F); cbn [snd try]; intuition congruence. }
  rewrite fst_andthen, S2, S3. rewrite fst_andthen. cbn [fst snd try In]. rewrite SY. rewrite fst_andthen.
  set (sv := match x with Thermistor => if (1 <? String.length (ea_P a))%nat then try (XSave (ea_P a)) (w_save w) else ([], true) | Voc => ([], true) end).
  assert (S4 : In e (fst sv) <-> (x = Thermistor /\ 2 <= String.length (ea_P a) /\ e = XSave (ea_P a))).
  { unfold sv. destruct x; [|cbn; intuition congruence]. destruct (Nat.ltb_spec 1 (String.length (ea_P a))); cbn [fst try In]; intuition (congruence || lia). }
  assert (S5 : snd sv = true <-> (x = Thermistor -> 2 <= String.length (ea_P a) -> w_save w = true)).
  { unfold sv. destruct x; [|cbn; intuition congruence]. destruct (Nat.ltb_spec 1 (String.length (ea_P a))); cbn [snd try]; intuition (congruence || lia). }
  rewrite S4, S5, fst_andthen. cbn [fst snd try In]. rewrite SY.
  assert (S6 : In e (match x with Thermistor => [XElapsed; XStop] | Voc => [XElapsed; XLogOff; XStop] end) <-> (e = XElapsed \/ e = XStop \/ (x = Voc /\ e = XLogOff))).
  { destruct x; cbn [In]; intuition congruence. }
  rewrite S6. assert (TT : forall P : Prop, (true = true /\ P) <-> P) by (intros P; tauto). rewrite TT, or_assoc. reflexivity.
Qed.
Ltac peel H := repeat match type of H with
  | _ \/ _ => destruct H as [H|H] | _ /\ _ => let X := fresh "X" in destruct H as [X H] | exists _, _ => let F := fresh "F" in destruct H as [F H]
  | _ = _ => discriminate H | False => destruct H end.
Lemma init_in : forall x a w e, In e (fst (runner_init x a w)) -> (exists n, e = XWorkers n) \/ (exists f, e = XLog f).
Proof. intros x a w e H. cbn in H. destruct H as [<-|[<-|[]]]; eauto. Qed.
Lemma main_in : forall x a w e, (forall n, e <> XWorkers n) -> (forall f, e <> XLog f) -> e <> XOops ->
  (In e (main x a w) <-> ea_h a = false /\ w_init w = true /\ In e (fst (runner_call x a w))).
Proof.
  intros x a w e N1 N2 N3. rewrite in_main, in_run. split.
  - intros (A & [B|(B & [C|[_ C]])]); [|auto|contradiction]. apply init_in in B. destruct B as [[n B]|[f B]]; [now destruct (N1 n)|now destruct (N2 f)].
  - tauto.
Qed.
Lemma floats_ok : forall a w, (exists F, map (w_float w) (split_comma (ea_F a)) = map Some F) <-> exists F, floats (w_float w) (split_comma (ea_F a)) = Some F.
Proof. intros a w. split; intros [F H]; exists F; now apply floats_spec. Qed.
Lemma fman_len : forall a w F, floats (w_float w) (split_comma (ea_F a)) = Some F -> (fman_ok F = true <-> 2 <= length (split_comma (ea_F a))).
Proof.
  intros a w F H. apply floats_spec in H. assert (LF : length (split_comma (ea_F a)) = length F) by (rewrite <- (map_length (w_float w)), H; apply map_length). rewrite LF.
  destruct F as [|? [|? ?]]; cbn; split; intros; try lia; try discriminate; auto.
Qed.
Lemma cr_spec : forall c, cr_ok c = true <-> fltb c fzero = false /\ fltb fone c = false.
Proof. intros c. unfold cr_ok. rewrite negb_true_iff, orb_false_iff. tauto. Qed.
(** the workers are shut down only if nothing went wrong up to the end of the run *)
Theorem C115_shutdown : forall x a w, In XShutdown (main x a w) <->
  (ea_h a = false /\ w_init w = true /\ w_data w = true /\ w_pop w = true /\ w_cb w = true /\
   (exists F, map (w_float w) (split_comma (ea_F a)) = map Some F) /\ fltb (ea_C a) fzero = false /\ fltb fone (ea_C a) = false /\
   (w_running w = Some false \/ (2 <= length (split_comma (ea_F a)) /\ w_run w = true))).
Proof.
  intros x a w. rewrite main_in by discriminate. rewrite runner_in, floats_ok. split.
  - intros (A & B & H). peel H; apply cr_spec in X3; repeat split; try tauto; eauto; rewrite <- (fman_len a w F X2); tauto.
  - intros (A & B & C & D & E & [F G] & H1 & H2 & K). split; auto. split; auto. right. right. split; auto. right. split; auto. right. right. right. split; auto. exists F. split; auto. right.
    split; [apply cr_spec; auto|]. right. split; [rewrite (fman_len a w F G); tauto|]. now left.
Qed.
(** the values for F: what is between the commas *)
Theorem C115_split : forall s, String.concat "," (split_comma s) = s /\ split_comma s <> [] /\
  (forall t k, In t (split_comma s) -> String.get k t <> Some ","%char).
Proof.
  induction s as [|c s (IH1 & IH2 & IH3)]; [split; [reflexivity|]; split; [discriminate|]; intros t k [<-|[]]; destruct k; discriminate|].
  cbn [split_comma]. destruct (Ascii.eqb_spec c ","%char) as [->|NC].
  - split; [|split; [discriminate|]].
    + destruct (split_comma s) as [|w l]; [contradiction|]. cbn [String.concat] in *. rewrite IH1. reflexivity.
    + intros t k [<-|H]; [destruct k; discriminate|eauto].
  - destruct (split_comma s) as [|w l] eqn:E; [contradiction|]. split; [|split; [discriminate|]].
    + cbn [String.concat] in *. rewrite <- IH1. destruct l; reflexivity.
    + intros t k [<-|H]; [|apply IH3; now right]. destruct k; cbn; [intros [= X]; contradiction|]. apply IH3. now left.
Qed.
(** what the options become; -u only sets an attribute that nothing reads, as the
    population has been set up by then, always with a Latin hypercube *)
Theorem C115_options : forall x a w kw, In (XDE kw) (main x a w) ->
  exists F, map (w_float w) (split_comma (ea_F a)) = map Some F /\
  (forall k v, In (k, v) kw -> (k = "CR" /\ v = KNum (ea_C a)) \/ (k = "F" /\ v = KList F) \/ (k = "maxiter" /\ v = KInt (ea_m a)) \/ (k = "uniform" /\ v = KBool (ea_u a)) \/
     (k = "adaptive" /\ v = KBool (negb (ea_n a))) \/ (k = "bitterEnd" /\ v = KBool (ea_e a)) \/ (k = "randomBase" /\ v = KBool (match x with Thermistor => ea_r a | Voc => negb (ea_b a) end)) \/
     (x = Thermistor /\ k = "xSSE" /\ v = KBool (ea_x a)) \/ (x = Thermistor /\ k = "dwellByGrave" /\ v = KInt 12))%string /\
  NoDup (map fst kw) /\ length kw = match x with Thermistor => 9 | Voc => 7 end.
Proof.
  intros x a w kw H. apply main_in in H; try discriminate. destruct H as (_ & _ & H). apply runner_in in H.
  assert (G : exists F, floats (w_float w) (split_comma (ea_F a)) = Some F /\ kw = de_kw x a F).
  { repeat match type of H with _ \/ _ => destruct H as [H|H] | _ /\ _ => let X := fresh "X" in destruct H as [X H] | exists _, _ => let F := fresh "F" in destruct H as [F H] end; try discriminate H.
    exists F. split; auto. congruence. }
  destruct G as (F & EF & ->). exists F. split; [now apply floats_spec|]. split.
  - intros k v Hk. destruct x; cbn in Hk; repeat (destruct Hk as [Hk|Hk]; [injection Hk as <- <-; tauto|]); contradiction.
  - split; [|destruct x; reflexivity]. destruct x; cbn; repeat constructor; cbn; intuition discriminate.
Qed.
Theorem C115_setup : forall x a w u, In (XSetup u) (main x a w) -> u = false.
Proof.
  intros x a w u H. apply main_in in H; try discriminate. destruct H as (_ & _ & H). apply runner_in in H.
  repeat match type of H with _ \/ _ => destruct H as [H|H] | _ /\ _ => let X := fresh "X" in destruct H as [X H] | exists _, _ => let F := fresh "F" in destruct H as [F H] end; try discriminate H.
  congruence.
Qed.
(** the population: as large as -p says; the thermistor example has its own target
    fraction, the number nearest to 5/1000 *)
Theorem C115_population : forall x a w n tf, In (XPopulation n tf) (main x a w) -> n = ea_p a /\
  match x with Voc => tf = None | Thermistor => exists t, tf = Some t /\ feqb t (fdiv (fofZ 5) (fofZ 1000)) = true end.
Proof.
  intros x a w n tf H. apply main_in in H; try discriminate. destruct H as (_ & _ & H). apply runner_in in H.
  repeat match type of H with _ \/ _ => destruct H as [H|H] | _ /\ _ => let X := fresh "X" in destruct H as [X H] | exists _, _ => let F := fresh "F" in destruct H as [F H] end; try discriminate H.
  assert (E1 : n = ea_p a) by congruence. assert (E2 : tf = match x with Thermistor => Some f0005 | Voc => None end) by congruence. split; [exact E1|].
  destruct x; [|exact E2]. exists f0005. split; [exact E2|vm_compute; reflexivity].
Qed.
Print Assumptions C115_population.
(** the population is saved under the name given, in the thermistor example only,
    when everything up to then went well *)
Theorem C115_saved : forall x a w p, In (XSave p) (main x a w) <-> x = Thermistor /\ p = ea_P a /\ 2 <= String.length p /\ In XShutdown (main x a w) /\ w_shut w = true.
Proof.
  intros x a w p. rewrite !main_in by discriminate. rewrite !runner_in. split.
  - intros (A & B & H).
    repeat match type of H with _ \/ _ => destruct H as [H|H] | _ /\ _ => let X := fresh "X" in destruct H as [X H] | exists _, _ => let F := fresh "F" in destruct H as [F H] end; try discriminate H.
    assert (p = ea_P a) as -> by congruence. split; [auto|]. split; [reflexivity|]. split; [auto|]. split; [|auto]. split; [auto|]. split; [auto|].
    right. right. split; [auto|]. right. split; [auto|]. right. right. right. split; [auto|]. exists F. split; [auto|]. right. split; [auto|]. right. split; [auto|]. now left.
  - intros (-> & -> & HL & (A & B & H) & HS). split; [auto|]. split; [auto|]. peel H.
    right. right. split; [auto|]. right. split; [auto|]. right. right. right. split; [auto|]. exists F. split; [auto|]. right. split; [auto|]. right. split; [auto|]. right. split; [auto|]. left. auto.
Qed.
(** a program that was started says at last that it failed, and goes on running, or
    it stops the reactor as the last thing it does *)
Definition fin (b : act) : Prop := if snd b then exists l, fst b = (l ++ [XStop])%list /\ ~ In XStop l else ~ In XStop (fst b).
Lemma fin_andthen : forall a b, ~ In XStop (fst a) -> fin b -> fin (andthen a b).
Proof.
  intros [la []] b N F; unfold fin, andthen in *; cbn [fst snd] in *; auto. destruct (snd b).
  - destruct F as (l & E & NI). exists (la ++ l)%list. rewrite E, app_assoc. split; auto. rewrite in_app_iff. tauto.
  - rewrite in_app_iff. tauto.
Qed.
Lemma call_fin : forall x a w, fin (runner_call x a w).
Proof.
  assert (T : forall e ok, e <> XStop -> ~ In XStop (fst (try e ok))) by (intros e ok N [H|[]]; auto).
  intros x a w. unfold runner_call. apply fin_andthen; [apply T; discriminate|]. destruct (w_data w); [|intros [H|[]]; discriminate].
  apply fin_andthen; [apply T; discriminate|]. apply fin_andthen; [destruct (w_setup w); cbn; intuition discriminate|]. apply fin_andthen; [apply T; discriminate|].
  destruct (floats _ _) as [F|]; [|intros []]. apply fin_andthen; [apply T; discriminate|].
  apply fin_andthen; [unfold de_call; destruct (w_running w) as [[]|]; try destruct (fman_ok F); cbn; intuition discriminate|].
  apply fin_andthen; [apply T; discriminate|]. apply fin_andthen; [destruct x; [destruct (Nat.ltb _ _)|]; cbn; intuition discriminate|]. apply fin_andthen; [apply T; discriminate|].
  unfold fin. cbn [snd fst]. destruct x; [exists [XElapsed]|exists [XElapsed; XLogOff]]; cbn; split; auto; intuition discriminate.
Qed.
Theorem C115_last : forall x a w, ea_h a = false -> w_init w = true ->
  exists l, ~ In XStop l /\ (main x a w = l ++ [XStop] \/ main x a w = l ++ [XOops])%list.
Proof.
  intros x a w H I. assert (F := call_fin x a w). unfold fin in F.
  assert (N : ~ In XStop (fst (runner_init x a w))) by (intros C; apply init_in in C; destruct C as [[? C]|[? C]]; discriminate).
  unfold main, runner_run. cbv zeta. rewrite H. replace (snd (runner_init x a w)) with true by (symmetry; exact I). cbv iota.
  set (i := fst (runner_init x a w)) in *. destruct (snd (runner_call x a w)).
  - destruct F as (l & E & NI). exists (i ++ l)%list. rewrite in_app_iff. split; [tauto|]. left. rewrite E. now rewrite app_assoc.
  - exists (i ++ fst (runner_call x a w))%list. rewrite in_app_iff. split; [tauto|]. right. now rewrite app_assoc.
Qed.
(** nothing at all with -h; otherwise first the number of workers asked for, or one
    less than there are cores, and where the messages go *)
Theorem C115_starts : forall x a w, (ea_h a = true -> main x a w = []) /\
  (ea_h a = false -> exists n f l, main x a w = XWorkers n :: XLog f :: l /\ (ea_N a <> 0%Z -> n = ea_N a) /\ (ea_N a = 0%Z -> n = (w_cores w - 1)%Z) /\ (f = None <-> ea_l a = false) /\
     (forall m, ~ In (XWorkers m) l) /\ (forall g, ~ In (XLog g) l)).
Proof.
  intros x a w. unfold main. split; intros ->; [reflexivity|]. cbv zeta.
  assert (NR : (forall m, ~ In (XWorkers m) (runner_run x a w)) /\ (forall g, ~ In (XLog g) (runner_run x a w))).
  { split; intros m H; apply in_run in H; (destruct H as [H|[_ H]]; [|discriminate H]); apply runner_in in H; peel H. }
  destruct NR as [NR1 NR2]. unfold runner_init. cbn [snd fst].
  do 2 eexists. exists (if w_init w then runner_run x a w else []). split; [destruct (w_init w); reflexivity|].
  split; [intros Hn; apply Z.eqb_neq in Hn; now rewrite Hn|]. split; [intros Hn; apply Z.eqb_eq in Hn; now rewrite Hn|].
  split; [destruct (ea_l a); split; intros; congruence|]. destruct (w_init w); split; auto.
Qed.
(** on one core, without -N, there are no workers *)
Definition ex_args (F : string) (u : bool) : eargs := mkEA false 2000 10 fone F false false false false u 0 false false "-".
Definition ex_float (s : string) : option f64 := if String.eqb s "" then None else Some fone.
Definition ex_world (cores : Z) (setup : bool) : world := mkW cores true true true setup true ex_float None true true true true.
Theorem C115_workers_refuted : ~ forall x a w n, (1 <= w_cores w)%Z -> (0 <= ea_N a)%Z -> In (XWorkers n) (main x a w) -> (1 <= n)%Z.
Proof. intros C. specialize (C Voc (ex_args "1" false) (ex_world 1 true) 0%Z ltac:(cbn; lia) ltac:(cbn; lia) ltac:(left; reflexivity)). lia. Qed.
(** -u is without effect: the population is set up before, and never with it *)
Theorem C115_uniform_refuted : ~ forall x a w u, In (XSetup u) (main x a w) -> u = ea_u a.
Proof. intros C. specialize (C Voc (ex_args "1" true) (ex_world 4 true) false). assert (H : In (XSetup false) (main Voc (ex_args "1" true) (ex_world 4 true))) by (right; right; right; right; left; reflexivity). apply C in H. discriminate H. Qed.
(** a single value for F makes DE fail though the parts succeed: the error is printed
    and the reactor runs on, with the workers *)
Theorem C115_ends_refuted : ~ forall x a w, ea_h a = false -> w_init w = true -> w_data w = true -> w_pop w = true -> w_setup w = true -> w_cb w = true -> w_run w = true -> w_shut w = true -> w_save w = true -> w_show w = true ->
  (forall s, In s (split_comma (ea_F a)) -> w_float w s <> None) -> In XStop (main x a w) \/ In XShutdown (main x a w).
Proof.
  intros C. specialize (C Voc (ex_args "1" false) (ex_world 4 true)). do 10 (specialize (C eq_refl)).
  destruct C as [H|H]; [intros s [<-|[]]; intros E; discriminate E| |].
  - apply C115_stops in H. destruct H as (_ & _ & _ & _ & _ & _ & _ & _ & [H|[H _]] & _); [discriminate H|cbn in H; lia].
  - apply C115_shutdown in H. destruct H as (_ & _ & _ & _ & _ & _ & _ & _ & [H|[H _]]); [discriminate H|cbn in H; lia].
Qed.
(** DE is run even if setting the population up failed: the error is printed and forgotten *)
Theorem C115_failed_setup_refuted : ~ forall x a w, In XRun (main x a w) -> w_setup w = true.
Proof.
  intros C. specialize (C Voc (ex_args "1,1" false) (ex_world 4 false)). discriminate C. apply main_in; [discriminate|discriminate|discriminate|]. split; [reflexivity|]. split; [reflexivity|].
  apply runner_in. right. right. split; [reflexivity|]. right. split; [reflexivity|]. right. right. right. split; [reflexivity|]. exists [fone; fone]. split; [reflexivity|].
  right. split; [vm_compute; reflexivity|]. left. split; [discriminate|]. split; reflexivity.
Qed.
(** the third program has nothing that forgets an error: it ends exactly if all goes well *)
Theorem C115_solver : forall w, In XStop (fst (solver_main w)) <->
  w_pop w = true /\ w_setup w = true /\ w_cb w = true /\ (w_running w = Some false \/ w_run w = true) /\ w_shut w = true /\ w_show w = true.
Proof.
  intros w. unfold solver_main. rewrite !fst_andthen, ?snd_andthen. cbn [fst snd try In].
  assert (S2 : In XStop (fst (match w_running w with Some false => ([], true) | _ => try XRun (w_run w) end)) <-> False).
  { destruct (w_running w) as [[]|]; cbn [fst try In]; intuition discriminate. }
  assert (S3 : snd (match w_running w with Some false => ([], true) | _ => try XRun (w_run w) end) = true <-> (w_running w = Some false \/ w_run w = true)).
  { destruct (w_running w) as [[]|]; cbn [snd try]; intuition congruence. }
  rewrite S2, S3. split.
  - intros H. repeat match type of H with _ \/ _ => destruct H as [H|H] | _ /\ _ => let X := fresh "X" in destruct H as [X H] | False => destruct H end; try discriminate H. auto 10.
  - intros (A & B & C & D & E & F). right. split; [exact A|]. right. split; [exact B|]. right. split; [exact C|]. right. split; [reflexivity|]. right. split; [exact D|]. right. split; [exact E|]. right. split; [exact F|]. right. now left.
Qed.
(** what a run of each program does, the parts shown by their names *)
Definition ename (e : eff) : string :=
  match e with
  | XWorkers _ => "workers" | XLog _ => "log" | XData => "data" | XPopulation _ _ => "population" | XSetup _ => "setup" | XCallback => "callback" | XDE _ => "de"
  | XRun => "run" | XShutdown => "shutdown" | XSave _ => "save" | XFinal => "final" | XElapsed => "elapsed" | XLogOff => "logoff" | XStop => "stop" | XOops => "oops"
  end%string.
Example C115_nonvacuous :
  map ename (main Thermistor (mkEA false 2000 10 fone "0.5,1.0" false false false false false 0 false false "pop.dat") (ex_world 4 true)) =
    ["workers"; "log"; "data"; "population"; "setup"; "callback"; "de"; "run"; "shutdown"; "save"; "final"; "elapsed"; "stop"]%string /\
  map ename (main Voc (ex_args "1,1" true) (ex_world 4 false)) =
    ["workers"; "log"; "data"; "population"; "setup"; "oops"; "callback"; "de"; "run"; "shutdown"; "final"; "elapsed"; "logoff"; "stop"]%string /\
  map ename (main Voc (ex_args "1" true) (ex_world 4 true)) = ["workers"; "log"; "data"; "population"; "setup"; "callback"; "de"; "oops"]%string /\
  map ename (main Voc (ex_args "1,,1" true) (ex_world 4 true)) = ["workers"; "log"; "data"; "population"; "setup"; "callback"; "oops"]%string /\
  map ename (fst (solver_main (ex_world 4 true))) = ["population"; "setup"; "callback"; "de"; "run"; "shutdown"; "final"; "elapsed"; "stop"]%string /\
  split_comma "0.5,1.0" = ["0.5"; "1.0"]%string /\ all_well Voc (ex_args "1,1" true) (ex_world 4 false).
Proof.
  do 6 (split; [vm_compute; reflexivity|]). repeat (split; [reflexivity|]). split; [exists [fone; fone]; reflexivity|].
  repeat (split; [vm_compute; reflexivity|]). split; [right; split; [cbn; lia|reflexivity]|]. split; [reflexivity|]. split; [intros E; discriminate E|reflexivity].
Qed.
Print Assumptions C115_shutdown.
Print Assumptions C115_options.
Print Assumptions C115_setup.
Print Assumptions C115_saved.
Print Assumptions C115_last.
Print Assumptions C115_starts.
Print Assumptions C115_workers_refuted.
Print Assumptions C115_uniform_refuted.
Print Assumptions C115_ends_refuted.
Print Assumptions C115_failed_setup_refuted.
Print Assumptions C115_solver.
Print Assumptions C115_split.
