(** * Property C103: waiting for reports and history updates *)
From Coq Require Import List Bool Arith ZArith Lia.
From Verif Require Import Flt Py HistModel HistProps WaitModel.
Import ListNotations.
Local Open Scope nat_scope.

(** ** What a sequence of events says *)
(** the operations that asked for the lock, in order *)
Fixpoint requested (es : list ev) : list hop :=
  match es with
  | [] => []
  | EReq (OAdd sse i never o) :: es => if isfin sse then OAdd sse i never o :: requested es else requested es
  | EReq op :: es => op :: requested es
  | _ :: es => requested es
  end.
(** how many of them have ended *)
Fixpoint ended (es : list ev) : nat := match es with [] => 0 | EDone :: es => S (ended es) | _ :: es => ended es end.
(** how many waits there were *)
Fixpoint nwaits (es : list ev) : nat := match es with [] => 0 | EWait :: es => S (nwaits es) | _ :: es => nwaits es end.
(** a run of report callbacks is in progress afterwards *)
Fixpoint reporting (b : bool) (es : list ev) : bool :=
  match es with [] => b | ERepStart :: es => reporting true es | ERepEnd :: es => reporting false es | _ :: es => reporting b es end.
(** the population is running: it has been set up and not aborted *)
Definition is_running (es : list ev) : Prop := In EInit es /\ ~ In EAbort es.

(** ** Lemmas *)
Definition opsq (q : list job) : list hop := flat_map (fun j => match j with JOp op => [op] | _ => [] end) q.
Lemma requested_app es : forall fs, requested (es ++ fs) = requested es ++ requested fs.
Proof. induction es as [|e es IH]; intros fs; [reflexivity|]. destruct e as [|op| | | | |]; cbn [requested app]; rewrite ?IH; try reflexivity. destruct op as [sse i n o| | | |]; rewrite ?IH; try reflexivity. destruct (isfin sse); reflexivity. Qed.
Lemma requested_req op : requested [EReq op] = if takes_lock op then [op] else [].
Proof. destruct op; reflexivity. Qed.
Lemma ended_app es fs : ended (es ++ fs) = ended es + ended fs.
Proof. induction es as [|[] es IH]; cbn; lia. Qed.
Lemma nwaits_app es fs : nwaits (es ++ fs) = nwaits es + nwaits fs.
Proof. induction es as [|[] es IH]; cbn; lia. Qed.
Lemma reporting_app es : forall fs b, reporting b (es ++ fs) = reporting (reporting b es) fs.
Proof. induction es as [|[] es IH]; intros fs b; cbn; auto. Qed.
Lemma opsq_app a b : opsq (a ++ b) = opsq a ++ opsq b.
Proof. apply flat_map_app. Qed.
Lemma w_run_app hash es : forall fs s, w_run hash s (es ++ fs) = match w_run hash s es with Some s => w_run hash s fs | None => None end.
Proof. induction es as [|e es IH]; intros fs s; [reflexivity|]. cbn [w_run app]. destruct (w_step hash s e); auto. Qed.

Lemma set_hist_len ws : forall id, length (set_hist id ws) = length ws.
Proof. induction ws as [|[a r] ws IH]; intros [|id]; cbn; auto. Qed.
Lemma set_hist_nth ws : forall id k, nth_error (set_hist id ws) k = option_map (fun w => if k =? id then (true, snd w) else w) (nth_error ws k).
Proof.
  induction ws as [|[a r] ws IH]; intros id k.
  - destruct id, k; reflexivity.
  - destruct id as [|id], k as [|k]; cbn [set_hist nth_error]; try reflexivity.
    + destruct (nth_error ws k); reflexivity.
    + rewrite IH. reflexivity.
Qed.
Lemma set_hists_nth ids : forall ws k, nth_error (fold_left (fun ws id => set_hist id ws) ids ws) k = option_map (fun w => if existsb (Nat.eqb k) ids then (true, snd w) else w) (nth_error ws k).
Proof.
  induction ids as [|id ids IH]; intros ws k; cbn [fold_left existsb]; [destruct (nth_error ws k); reflexivity|].
  rewrite IH, set_hist_nth. destruct (nth_error ws k) as [[a r]|]; [|reflexivity]. cbn [option_map snd]. destruct (k =? id); cbn [orb snd]; destruct (existsb (Nat.eqb k) ids); reflexivity.
Qed.
Lemma set_hists_len ids : forall ws, length (fold_left (fun ws id => set_hist id ws) ids ws) = length ws.
Proof. induction ids as [|id ids IH]; intros ws; cbn [fold_left]; [reflexivity|]. rewrite IH. apply set_hist_len. Qed.
Lemma drain_ops q : opsq (snd (drain q)) = opsq q.
Proof. induction q as [|[op|id] q IH]; cbn; auto. destruct (drain q) as [ids q']. exact IH. Qed.
Lemma drain_in q id : In (JWait id) (snd (drain q)) -> In (JWait id) q.
Proof. induction q as [|[op|k] q IH]; cbn; auto. destruct (drain q) as [ids q']. cbn in *. auto. Qed.
Lemma drain_ids q id : In id (fst (drain q)) -> In (JWait id) q.
Proof. induction q as [|[op|k] q IH]; cbn; [tauto|tauto|]. destruct (drain q) as [ids q']. cbn in *. intros [->|H]; auto. Qed.
Lemma drain_head q : match snd (drain q) with JWait _ :: _ => False | _ => True end.
Proof. induction q as [|[op|k] q IH]; cbn; auto. destruct (drain q) as [ids q']. exact IH. Qed.
Lemma drain_split id q1 : forall q2, ~ In (JWait id) q1 -> ~ In (JWait id) q2 ->
  match opsq q1 with
  | [] => In id (fst (drain (q1 ++ JWait id :: q2))) /\ ~ In (JWait id) (snd (drain (q1 ++ JWait id :: q2)))
  | _ => ~ In id (fst (drain (q1 ++ JWait id :: q2))) /\ exists q1', snd (drain (q1 ++ JWait id :: q2)) = q1' ++ JWait id :: q2 /\ opsq q1' = opsq q1 /\ ~ In (JWait id) q1'
  end.
Proof.
  induction q1 as [|j q1 IH]; intros q2 N1 N2.
  - cbn. destruct (drain q2) as [ids q'] eqn:E. cbn. split; [now left|]. intros H. apply N2, drain_in. now rewrite E.
  - destruct j as [op|k].
    + cbn. split; [tauto|]. exists (JOp op :: q1). auto.
    + assert (N1' : ~ In (JWait id) q1) by (intros H; apply N1; now right). specialize (IH q2 N1' N2).
      cbn [opsq flat_map app drain]. destruct (drain (q1 ++ JWait id :: q2)) as [ids q'] eqn:E. cbn [fst snd] in *. fold (opsq q1).
      destruct (opsq q1).
      * destruct IH as [A B]. split; [now right|exact B].
      * destruct IH as [A B]. split; [|exact B]. intros [->|H]; [|tauto]. apply N1. now left.
Qed.

(** the number of operations that gave the lock back *)
Definition released (es : list ev) (s : wst) : nat := ended es - (if locked (wh s) then 1 else 0).
Record inv (hash : ind -> Z) (nd nm : nat) (es : list ev) (s : wst) : Prop := {
  i_hist : wh s = hexec hash (h_init nd nm) (firstn (ended es) (requested es));
  i_le : ended es <= length (requested es);
  i_lock : locked (wh s) = true -> 1 <= ended es;
  i_ops : opsq (wq s) = skipn (released es s) (requested es);
  i_head : match wq s with JWait _ :: _ => False | _ => True end;
  i_ids : forall id, In (JWait id) (wq s) -> id < length (waits s);
  i_n : length (waits s) = nwaits es;
  i_rep : wrep s = reporting false es;
  i_run : (wrun s = Some true <-> is_running es) /\ (wrun s = None <-> ~ In EInit es /\ ~ In EAbort es) /\ (wrun s = Some false <-> In EAbort es) }.

Lemma hexec_snoc hash ops : forall h op, hexec hash h (ops ++ [op]) = fst (hstep hash (hexec hash h ops) op).
Proof. induction ops as [|o ops IH]; intros h op; [reflexivity|]. cbn [hexec app]. apply IH. Qed.
Lemma skipn_cons {A} (l : list A) : forall n x t, skipn n l = x :: t -> firstn (S n) l = firstn n l ++ [x] /\ skipn (S n) l = t /\ n < length l.
Proof.
  induction l as [|y l IH]; intros [|n] x t H; cbn in *; try discriminate.
  - injection H as -> ->. repeat split; auto. lia.
  - destruct (IH n x t H) as (E1 & E2 & E3). cbn in E1, E2. rewrite E1. repeat split; auto. lia.
Qed.
Lemma in_snoc {A} (x y : A) l : In x (l ++ [y]) <-> In x l \/ y = x.
Proof. rewrite in_app_iff. cbn. tauto. Qed.

Lemma inv_init hash nd nm : inv hash nd nm [] (w_init nd nm).
Proof. constructor; cbn; auto; try tauto; try discriminate. unfold is_running. cbn. repeat split; intros; try discriminate; tauto. Qed.

Lemma inv_step hash nd nm es s e s' : inv hash nd nm es s -> w_step hash s e = Some s' -> inv hash nd nm (es ++ [e]) s'.
Proof.
  intros [Ih Il Ik Io Iq Ii In_ Ir (R1 & R2 & R3)] E. unfold is_running in *.
  assert (RUN : e <> EInit -> e <> EAbort -> forall w, (w = Some true <-> In EInit (es ++ [e]) /\ ~ In EAbort (es ++ [e])) <-> (w = Some true <-> In EInit es /\ ~ In EAbort es)).
  { intros N1 N2 w. rewrite !in_snoc. intuition congruence. }
  assert (RUN2 : e <> EInit -> e <> EAbort -> (In EInit (es ++ [e]) <-> In EInit es) /\ (In EAbort (es ++ [e]) <-> In EAbort es)).
  { intros N1 N2. rewrite !in_snoc. intuition congruence. }
  destruct e as [|op| | | | |]; cbn [w_step] in E.
  - destruct (wrun s) as [b|] eqn:W; [discriminate|]. injection E as <-. constructor; cbn [wh wq wrep waits wrun]; unfold released; cbn [wh]; rewrite ?requested_app, ?ended_app, ?nwaits_app, ?reporting_app; cbn [requested ended nwaits reporting]; rewrite ?app_nil_r, ?Nat.add_0_r; auto.
    unfold is_running. rewrite !in_snoc. destruct R2 as [R2 _]. specialize (R2 eq_refl). repeat split; intros; try discriminate; try tauto; intuition discriminate.
  - destruct (RUN2 ltac:(discriminate) ltac:(discriminate)) as [Q1 Q2].
    assert (G : (wrun s = Some true <-> is_running (es ++ [EReq op])) /\ (wrun s = None <-> ~ In EInit (es ++ [EReq op]) /\ ~ In EAbort (es ++ [EReq op])) /\ (wrun s = Some false <-> In EAbort (es ++ [EReq op]))).
    { unfold is_running. rewrite Q1, Q2. auto. }
    injection E as <-. destruct (takes_lock op) eqn:T; constructor; cbn [wh wq wrep waits wrun]; unfold released in *; cbn [wh]; rewrite ?requested_app, ?requested_req, ?T, ?ended_app, ?nwaits_app, ?reporting_app; cbn [ended nwaits reporting]; rewrite ?app_nil_r, ?Nat.add_0_r; auto.
    + rewrite Ih, firstn_app. replace (ended es - length (requested es)) with 0 by lia. cbn [firstn]. now rewrite app_nil_r.
    + rewrite app_length. lia.
    + rewrite opsq_app, Io, skipn_app. replace (_ - length (requested es)) with 0; [reflexivity|]. destruct (locked (wh s)); lia.
    + destruct (wq s) as [|[]]; cbn; auto.
    + intros id H. apply Ii. rewrite in_snoc in H. destruct H as [H|H]; [exact H|discriminate].
  - destruct (wq s) as [|[op|] q] eqn:Q; try discriminate. destruct (locked (wh s)) eqn:L; [discriminate|].
    destruct (RUN2 ltac:(discriminate) ltac:(discriminate)) as [Q1 Q2].
    assert (G : (wrun s = Some true <-> is_running (es ++ [EDone])) /\ (wrun s = None <-> ~ In EInit (es ++ [EDone]) /\ ~ In EAbort (es ++ [EDone])) /\ (wrun s = Some false <-> In EAbort (es ++ [EDone]))).
    { unfold is_running. rewrite Q1, Q2. auto. }
    unfold released in Io. rewrite L, Nat.sub_0_r in Io. cbn [opsq flat_map app] in Io. fold (opsq q) in Io. symmetry in Io. destruct (skipn_cons _ _ _ _ Io) as (S1 & S2 & S3).
    assert (NH : fst (hstep hash (wh s) op) = hexec hash (h_init nd nm) (firstn (S (ended es)) (requested es))) by (rewrite S1, hexec_snoc, <- Ih; reflexivity).
    set (h := fst (hstep hash (wh s) op)) in *. destruct (locked h) eqn:LH.
    + injection E as <-. constructor; cbn [wh wq wrep waits wrun]; unfold released; cbn [wh]; rewrite ?LH, ?requested_app, ?ended_app, ?nwaits_app, ?reporting_app; cbn [requested ended nwaits reporting]; rewrite ?app_nil_r, ?Nat.add_0_r, ?Nat.add_1_r; auto; try lia.
      cbn [opsq flat_map app]. fold (opsq q). replace (S (ended es) - 1) with (ended es) by lia. now symmetry.
    + destruct (drain q) as [ids q'] eqn:D. injection E as <-.
      constructor; cbn [wh wq wrep waits wrun]; unfold released; cbn [wh]; rewrite ?LH, ?requested_app, ?ended_app, ?nwaits_app, ?reporting_app; cbn [requested ended nwaits reporting]; rewrite ?app_nil_r, ?Nat.add_0_r, ?Nat.add_1_r; auto; try lia.
      * rewrite Nat.sub_0_r, S2. assert (DO := drain_ops q). rewrite D in DO. exact DO.
      * assert (DH := drain_head q). rewrite D in DH. exact DH.
      * intros id H. rewrite set_hists_len. apply Ii. right. apply drain_in. now rewrite D.
      * rewrite set_hists_len. exact In_.
  - destruct (RUN2 ltac:(discriminate) ltac:(discriminate)) as [Q1 Q2].
    assert (G : (wrun s = Some true <-> is_running (es ++ [EWait])) /\ (wrun s = None <-> ~ In EInit (es ++ [EWait]) /\ ~ In EAbort (es ++ [EWait])) /\ (wrun s = Some false <-> In EAbort (es ++ [EWait]))).
    { unfold is_running. rewrite Q1, Q2. auto. }
    assert (J : forall q w, opsq q = opsq (wq s) -> match q with JWait _ :: _ => False | _ => True end -> (forall id, In (JWait id) q -> id < S (length (waits s))) ->
      inv hash nd nm (es ++ [EWait]) (mkW (wh s) q (wrep s) (waits s ++ [w]) (wrun s))).
    { intros q w H1 H2 H3. constructor; cbn [wh wq wrep waits wrun]; unfold released in *; cbn [wh]; rewrite ?requested_app, ?ended_app, ?nwaits_app, ?reporting_app; cbn [requested ended nwaits reporting]; rewrite ?app_nil_r, ?Nat.add_0_r; auto.
      - congruence.
      - intros id H. rewrite app_length. cbn. specialize (H3 id H). lia.
      - rewrite app_length. cbn. lia. }
    destruct (wrun s) as [[]|] eqn:W; injection E as <-; rewrite <- W in *.
    + destruct (wq s) as [|j q] eqn:Q; rewrite <- ?Q.
      * apply J; rewrite Q; cbn; auto; tauto.
      * apply J; rewrite Q.
        -- rewrite opsq_app. cbn. now rewrite app_nil_r.
        -- exact Iq.
        -- intros id H. rewrite in_snoc in H. destruct H as [H|H]; [specialize (Ii id H); lia|]. injection H as <-. lia.
    + apply J; auto; try (rewrite Q; auto); intros id H; specialize (Ii id H); lia.
    + apply J; auto; try (rewrite Q; auto); intros id H; specialize (Ii id H); lia.
  - destruct (wrep s) eqn:WR; [discriminate|]. injection E as <-. destruct (RUN2 ltac:(discriminate) ltac:(discriminate)) as [Q1 Q2].
    constructor; cbn [wh wq wrep waits wrun]; unfold released, is_running in *; cbn [wh]; rewrite ?requested_app, ?ended_app, ?nwaits_app, ?reporting_app; cbn [requested ended nwaits reporting]; rewrite ?app_nil_r, ?Nat.add_0_r; auto.
    rewrite Q1, Q2. auto.
  - destruct (wrep s) eqn:WR; [|discriminate]. injection E as <-. destruct (RUN2 ltac:(discriminate) ltac:(discriminate)) as [Q1 Q2].
    constructor; cbn [wh wq wrep waits wrun]; unfold released, is_running, set_rep in *; cbn [wh]; rewrite ?map_length, ?requested_app, ?ended_app, ?nwaits_app, ?reporting_app; cbn [requested ended nwaits reporting]; rewrite ?app_nil_r, ?Nat.add_0_r; auto.
    rewrite Q1, Q2. auto.
  - injection E as <-.
    constructor; cbn [wh wq wrep waits wrun]; unfold released, is_running, set_rep in *; cbn [wh]; rewrite ?map_length, ?requested_app, ?ended_app, ?nwaits_app, ?reporting_app; cbn [requested ended nwaits reporting]; rewrite ?app_nil_r, ?Nat.add_0_r; auto.
    rewrite !in_snoc. repeat split; intros; try discriminate; tauto.
Qed.
Lemma inv_run hash nd nm fs : forall es s s', inv hash nd nm es s -> w_run hash s fs = Some s' -> inv hash nd nm (es ++ fs) s'.
Proof.
  induction fs as [|e fs IH]; intros es s s' I E; cbn [w_run] in E.
  - injection E as <-. now rewrite app_nil_r.
  - destruct (w_step hash s e) as [t|] eqn:S; [|discriminate]. replace (es ++ e :: fs) with ((es ++ [e]) ++ fs) by (rewrite <- app_assoc; reflexivity).
    eapply IH; [|exact E]. eapply inv_step; eauto.
Qed.

(** one wait: [n] operations were requested before it; [r] says that its report part is done *)
Definition one (es : list ev) (id n : nat) (r : bool) (s : wst) : Prop :=
  nth_error (waits s) id = Some (n <=? released es s, r) /\
  if n <=? released es s then ~ In (JWait id) (wq s)
  else exists q1 q2, wq s = q1 ++ JWait id :: q2 /\ length (opsq q1) = n - released es s /\ ~ In (JWait id) q1 /\ ~ In (JWait id) q2.

Lemma one_step hash nd nm es s e s' id n r : inv hash nd nm es s -> w_step hash s e = Some s' -> one es id n r s ->
  one (es ++ [e]) id n (r || match e with ERepEnd | EAbort => true | _ => false end) s'.
Proof.
  intros I E [A B]. assert (LT : id < length (waits s)) by (apply nth_error_Some; congruence).
  assert (I' := inv_step _ _ _ _ _ _ _ I E). destruct I as [Ih Il Ik Io Iq Ii In_ Ir RR].
  destruct e as [|op| | | | |]; cbn [w_step] in E.
  - destruct (wrun s); [discriminate|]. injection E as <-. unfold one, released in *. rewrite ended_app. cbn [ended wh wq waits]. rewrite Nat.add_0_r, orb_false_r. auto.
  - injection E as <-. unfold one, released in *. rewrite ended_app. cbn [ended]. rewrite Nat.add_0_r, orb_false_r. destruct (takes_lock op); cbn [wh wq waits]; [|auto].
    split; [exact A|]. destruct (n <=? _).
    + intros H. apply B. rewrite in_snoc in H. destruct H as [H|H]; [exact H|discriminate].
    + destruct B as (q1 & q2 & Q & N & N1 & N2). exists q1, (q2 ++ [JOp op]). rewrite Q, <- app_assoc. repeat split; auto.
      intros H. rewrite in_snoc in H. destruct H as [H|H]; [tauto|discriminate].
  - destruct (wq s) as [|[op|] q] eqn:Q; try discriminate. destruct (locked (wh s)) eqn:L; [discriminate|]. rewrite orb_false_r.
    unfold one, released in *. rewrite ended_app. cbn [ended]. rewrite L, Nat.sub_0_r in *. destruct (locked (fst (hstep hash (wh s) op))) eqn:LH.
    + injection E as <-. cbn [wh wq waits]. rewrite LH. replace (ended es + 1 - 1) with (ended es) by lia. auto.
    + destruct (drain q) as [ids q'] eqn:D. injection E as <-. cbn [wh wq waits]. rewrite LH, Nat.sub_0_r, Nat.add_1_r, set_hists_nth, A. cbn [option_map snd].
      assert (EX : existsb (Nat.eqb id) ids = true <-> In id ids).
      { rewrite existsb_exists. split; [intros (x & H & H2); apply Nat.eqb_eq in H2; now subst|intros H; exists id; split; [exact H|apply Nat.eqb_refl]]. }
      destruct (Nat.leb_spec n (ended es)).
      * destruct (Nat.leb_spec n (S (ended es))); [|lia]. split.
        -- destruct (existsb _ ids); reflexivity.
        -- intros H2. apply B. right. apply drain_in. now rewrite D.
      * destruct B as (q1 & q2 & Q1 & N & N1 & N2). destruct q1 as [|j q1]; [discriminate Q1|]. injection Q1 as <- ->.
        assert (N1' : ~ In (JWait id) q1) by (intros H2; apply N1; now right).
        cbn [opsq flat_map app length] in N. fold (opsq q1) in N. assert (DS := drain_split id q1 q2 N1' N2). rewrite D in DS. cbn [fst snd] in DS.
        destruct (opsq q1) as [|o os] eqn:O.
        -- cbn in N. destruct (Nat.leb_spec n (S (ended es))); [|lia]. destruct DS as [D1 D2]. apply EX in D1. rewrite D1. split; [reflexivity|exact D2].
        -- cbn in N. destruct (Nat.leb_spec n (S (ended es))); [lia|]. destruct DS as [D1 (q1' & D2 & D3 & D4)].
           destruct (existsb _ ids) eqn:EE; [tauto|]. split; [reflexivity|]. exists q1', q2. rewrite D3. repeat split; auto. cbn. lia.
  - unfold one, released in *. rewrite ended_app. cbn [ended]. rewrite Nat.add_0_r, orb_false_r.
    assert (J : forall q w f, (q = wq s \/ q = wq s ++ [JWait (length (waits s))]) -> s' = mkW (wh s) q (wrep s) (waits s ++ [w]) f ->
      nth_error (waits s') id = Some (n <=? ended es - (if locked (wh s') then 1 else 0), r) /\
      (if n <=? ended es - (if locked (wh s') then 1 else 0) then ~ In (JWait id) (wq s') else
       exists q1 q2, wq s' = q1 ++ JWait id :: q2 /\ length (opsq q1) = n - (ended es - (if locked (wh s') then 1 else 0)) /\ ~ In (JWait id) q1 /\ ~ In (JWait id) q2)).
    { intros q w f C ->. cbn [wh wq waits]. split; [rewrite nth_error_app1 by exact LT; exact A|]. destruct (n <=? _).
      - destruct C as [-> | ->]; [exact B|]. intros H. rewrite in_snoc in H. destruct H as [H|H]; [tauto|]. injection H as H. lia.
      - destruct B as (q1 & q2 & Q & N & N1 & N2). destruct C as [-> | ->]; [exists q1, q2; auto|]. exists q1, (q2 ++ [JWait (length (waits s))]). rewrite Q, <- app_assoc. repeat split; auto.
        intros H. rewrite in_snoc in H. destruct H as [H|H]; [tauto|]. injection H as H. lia. }
    destruct (wrun s) as [[]|]; injection E as E; symmetry in E.
    + eapply J; [|exact E]. destruct (wq s); auto.
    + eapply J; [|exact E]. auto.
    + eapply J; [|exact E]. auto.
  - destruct (wrep s); [discriminate|]. injection E as <-. unfold one, released in *. rewrite ended_app. cbn [ended wh wq waits]. rewrite Nat.add_0_r, orb_false_r. auto.
  - destruct (wrep s); [|discriminate]. injection E as <-. unfold one, released in *. rewrite ended_app. cbn [ended wh wq waits]. rewrite Nat.add_0_r, orb_true_r. split; [|exact B].
    unfold set_rep. rewrite nth_error_map, A. reflexivity.
  - injection E as <-. unfold one, released in *. rewrite ended_app. cbn [ended wh wq waits]. rewrite Nat.add_0_r, orb_true_r. split; [|exact B].
    unfold set_rep. rewrite nth_error_map, A. reflexivity.
Qed.
Definition rep_event (e : ev) : bool := match e with ERepEnd | EAbort => true | _ => false end.
Lemma one_run hash nd nm fs : forall es s s' id n r, inv hash nd nm es s -> w_run hash s fs = Some s' -> one es id n r s ->
  one (es ++ fs) id n (r || existsb rep_event fs) s'.
Proof.
  induction fs as [|e fs IH]; intros es s s' id n r I E O; cbn [w_run] in E.
  - injection E as <-. cbn. now rewrite app_nil_r, orb_false_r.
  - destruct (w_step hash s e) as [t|] eqn:S; [|discriminate]. replace (es ++ e :: fs) with ((es ++ [e]) ++ fs) by (rewrite <- app_assoc; reflexivity).
    cbn [existsb]. rewrite orb_assoc. eapply IH; [|exact E|].
    + eapply inv_step; eauto.
    + eapply one_step in O; eauto.
Qed.

(** a wait that has fired has fired for good *)
Lemma fired_stays hash fs : forall s s' id, fired s id -> w_run hash s fs = Some s' -> fired s' id.
Proof.
  unfold fired. induction fs as [|e fs IH]; intros t t' id H E; cbn [w_run] in E; [now injection E as <-|].
  destruct (w_step hash t e) as [u|] eqn:S; [|discriminate]. apply (IH u); [|exact E]. clear IH E.
  assert (L : id < length (waits t)) by (apply nth_error_Some; congruence).
  destruct e as [|op| | | | |]; cbn [w_step] in S.
  - destruct (wrun t); [discriminate|]. now injection S as <-.
  - injection S as <-. now destruct (takes_lock op).
  - destruct (wq t) as [|[op|] q]; try discriminate. destruct (locked (wh t)); [discriminate|]. destruct (locked (fst (hstep hash (wh t) op))); [now injection S as <-|].
    destruct (drain q) as [ids q']. injection S as <-. cbn [waits]. rewrite set_hists_nth, H. cbn. now destruct (existsb _ ids).
  - destruct (wrun t) as [[]|]; injection S as <-; cbn [waits]; rewrite nth_error_app1 by exact L; exact H.
  - destruct (wrep t); [discriminate|]. now injection S as <-.
  - destruct (wrep t); [|discriminate]. injection S as <-. cbn [waits]. unfold set_rep. now rewrite nth_error_map, H.
  - injection S as <-. cbn [waits]. unfold set_rep. now rewrite nth_error_map, H.
Qed.

(** ** C103 *)
(** The history is always what the requested operations that have ended make of it, one after
    the other in the order of their requests *)
Theorem C103_serial : forall hash nd nm es s, w_run hash (w_init nd nm) es = Some s ->
  ended es <= length (requested es) /\ wh s = hexec hash (h_init nd nm) (firstn (ended es) (requested es)).
Proof. intros hash nd nm es s E. destruct (inv_run _ _ _ _ _ _ _ (inv_init hash nd nm) E). auto. Qed.

(** A call of waitForReports has fired exactly when the population was not running at the time,
    or all operations on the history requested before have ended and given the lock back, and
    the run of report callbacks in progress at the time has ended, if there was one and no abort *)
Theorem C103_fires : forall hash nd nm pre post s, w_run hash (w_init nd nm) (pre ++ EWait :: post) = Some s ->
  (fired s (nwaits pre) <->
   ~ is_running pre \/
   (length (requested pre) + (if locked (wh s) then 1 else 0) <= ended (pre ++ EWait :: post) /\
    (reporting false pre = false \/ In ERepEnd post \/ In EAbort post))).
Proof.
  intros hash nd nm pre post s E. rewrite w_run_app in E. destruct (w_run hash (w_init nd nm) pre) as [s0|] eqn:E0; [|discriminate].
  assert (I0 := inv_run _ _ _ _ _ _ _ (inv_init hash nd nm) E0). cbn [app] in I0. cbn [w_run] in E. destruct (w_step hash s0 EWait) as [s1|] eqn:E1; [|discriminate].
  assert (I1 := inv_step _ _ _ _ _ _ _ I0 E1). assert (I2 := inv_run _ _ _ _ _ _ _ I1 E). destruct I0 as [Ih Il Ik Io Iq Ii In_ Ir (R1 & R2 & R3)].
  assert (REP : existsb rep_event post = true <-> In ERepEnd post \/ In EAbort post).
  { rewrite existsb_exists. split.
    - intros (x & H1 & H2). destruct x; try discriminate; auto.
    - intros [H|H]; eexists; (split; [exact H|reflexivity]). }
  assert (ASS : (pre ++ [EWait]) ++ post = pre ++ EWait :: post) by (rewrite <- app_assoc; reflexivity). rewrite ASS in I2.
  cbn [w_step] in E1. destruct (wrun s0) as [[]|] eqn:W.
  - assert (RUN : is_running pre) by (now apply R1). injection E1 as E1.
    assert (O : one (pre ++ [EWait]) (nwaits pre) (length (requested pre)) (negb (wrep s0)) s1).
    { subst s1. unfold one, released. cbn [wh wq waits]. rewrite ended_app. cbn [ended]. rewrite Nat.add_0_r. fold (released pre s0).
      assert (HD : (length (requested pre) <=? released pre s0) = match wq s0 with [] => true | _ => false end).
      { destruct (wq s0) as [|[op|] q] eqn:Q; [| |tauto].
        - apply Nat.leb_le. cbn in Io. symmetry in Io. apply (f_equal (@length _)) in Io. rewrite skipn_length in Io. cbn in Io. lia.
        - apply Nat.leb_gt. cbn [opsq flat_map app] in Io. symmetry in Io. apply skipn_cons in Io. lia. }
      rewrite HD. split.
      - rewrite nth_error_app2 by lia. rewrite <- In_, Nat.sub_diag. reflexivity.
      - destruct (wq s0) as [|j q] eqn:Q; [cbn; tauto|]. exists (j :: q), []. rewrite In_. split; [reflexivity|]. split.
        + rewrite <- Q in *. rewrite Io, skipn_length. reflexivity.
        + split; [|cbn; tauto]. intros H. specialize (Ii _ H). lia. }
    assert (O2 := one_run _ _ _ _ _ _ _ _ _ _ I1 E O). destruct O2 as [F _]. rewrite ASS in F. unfold fired. rewrite F. rewrite <- REP.
    assert (LE : (length (requested pre) <=? released (pre ++ EWait :: post) s) = true <-> length (requested pre) + (if locked (wh s) then 1 else 0) <= ended (pre ++ EWait :: post)).
    { rewrite Nat.leb_le. unfold released. destruct (locked (wh s)) eqn:L; [|lia]. assert (K := i_lock _ _ _ _ _ I2 L). lia. }
    rewrite <- LE, <- Ir. split.
    + intros H. injection H as H1 H2. right. split; [exact H1|]. apply orb_true_iff in H2. destruct H2 as [H2|H2]; [left; now apply negb_true_iff|tauto].
    + intros [H|[H1 H2]]; [contradiction|]. rewrite H1. f_equal. f_equal. apply orb_true_iff. destruct H2 as [->|H2]; auto.
  - assert (NR : ~ is_running pre) by (intros H; apply R1 in H; discriminate). split; [tauto|]. intros _. eapply fired_stays; [|exact E].
    injection E1 as <-. unfold fired. cbn [waits]. rewrite nth_error_app2 by lia. now rewrite <- In_, Nat.sub_diag.
  - assert (NR : ~ is_running pre) by (intros H; apply R1 in H; discriminate). split; [tauto|]. intros _. eapply fired_stays; [|exact E].
    injection E1 as <-. unfold fired. cbn [waits]. rewrite nth_error_app2 by lia. now rewrite <- In_, Nat.sub_diag.
Qed.
(** When a wait of a running population has fired, everything requested before it is in the
    history, in the order of the requests *)
Theorem C103_applied : forall hash nd nm pre post s, w_run hash (w_init nd nm) (pre ++ EWait :: post) = Some s ->
  is_running pre -> fired s (nwaits pre) ->
  exists later, wh s = hexec hash (hexec hash (h_init nd nm) (requested pre)) later.
Proof.
  intros hash nd nm pre post s E R F. apply (C103_fires _ _ _ _ _ _ E) in F. destruct F as [F|[F _]]; [contradiction|].
  destruct (C103_serial _ _ _ _ _ E) as [_ H]. rewrite requested_app, firstn_app, firstn_all2 in H by lia.
  eexists. rewrite H. assert (A : forall a b h, hexec hash h (a ++ b) = hexec hash (hexec hash h a) b) by (induction a as [|x a IH]; intros b h; [reflexivity|apply IH]).
  apply A.
Qed.

Lemma locked_stays hash fs : forall s s', locked (wh s) = true -> w_run hash s fs = Some s' -> ended fs = 0 /\ wh s' = wh s.
Proof.
  induction fs as [|e fs IH]; intros s s' L E; cbn [w_run] in E; [injection E as <-; auto|].
  destruct (w_step hash s e) as [t|] eqn:S; [|discriminate].
  assert (T : e <> EDone /\ wh t = wh s).
  { destruct e as [|op| | | | |]; cbn [w_step] in S; (split; [try discriminate|]).
    - destruct (wrun s); [discriminate|]. now injection S as <-.
    - injection S as <-. now destruct (takes_lock op).
    - rewrite L in S. destruct (wq s) as [|[]]; discriminate.
    - rewrite L in S. destruct (wq s) as [|[]]; discriminate.
    - destruct (wrun s) as [[]|]; now injection S as <-.
    - destruct (wrep s); [discriminate|]. now injection S as <-.
    - destruct (wrep s); [|discriminate]. now injection S as <-.
    - now injection S as <-. }
  destruct T as [T1 T2]. destruct (IH t s') as [A B]; [now rewrite T2|exact E|]. split; [|congruence]. destruct e; try exact A. congruence.
Qed.
(** An operation that fails to give the lock back hangs every later wait of a running
    population for good, whatever happens, even an abort *)
Theorem C103_hang_refuted : forall hash nd nm pre s0 post s, w_run hash (w_init nd nm) pre = Some s0 -> is_running pre -> locked (wh s0) = true ->
  w_run hash s0 (EWait :: post) = Some s -> ~ fired s (nwaits pre).
Proof.
  intros hash nd nm pre s0 post s E0 R L E F. destruct (locked_stays _ _ _ _ L E) as [N H]. destruct (C103_serial _ _ _ _ _ E0) as [B _].
  assert (E' : w_run hash (w_init nd nm) (pre ++ EWait :: post) = Some s) by (rewrite w_run_app, E0; exact E).
  apply (C103_fires _ _ _ _ _ _ E') in F. destruct F as [F|[F _]]; [contradiction|]. rewrite H, L, ended_app, N in F. lia.
Qed.
(** ... and there is such an operation: the record of an individual with an SSE beyond binary32 *)
Theorem C103_hang_reached_refuted : exists pre s0, w_run hash0 (w_init 1 10) pre = Some s0 /\ is_running pre /\ locked (wh s0) = true /\
  Forall (fun e => match e with EReq (OAdd sse i _ _) => isfin sse = true /\ sse = iSSE i /\ forallb isfin (ivals i) = true | _ => True end) pre.
Proof.
  exists [EInit; EReq (OAdd (iSSE huge) huge false o0); EDone].
  assert (H : option_map (fun s => locked (wh s)) (w_run hash0 (w_init 1 10) [EInit; EReq (OAdd (iSSE huge) huge false o0); EDone]) = Some true) by (vm_compute; reflexivity).
  revert H. generalize (w_run hash0 (w_init 1 10) [EInit; EReq (OAdd (iSSE huge) huge false o0); EDone]). intros [s|] H; [|discriminate H].
  exists s. split; [reflexivity|]. split; [split; [now left|intros [K|[K|[K|[]]]]; discriminate K]|]. split; [now injection H|].
  apply Forall_cons; [exact I|]. apply Forall_cons; [|apply Forall_cons; [exact I|constructor]]. split; [vm_compute; reflexivity|]. split; [reflexivity|vm_compute; reflexivity].
Qed.

Lemma hexec_locked hash ops : forall h, locked h = true -> locked (hexec hash h ops) = true.
Proof. intros h L. destruct (C35_locked_forever hash ops h L) as [-> _]. exact L. Qed.
(** Waiting never deadlocks: unless an operation requested before keeps the lock, the wait fires
    after as many ends as there are operations outstanding, and the end of the reports *)
Theorem C103_progress : forall hash nd nm pre s0, w_run hash (w_init nd nm) pre = Some s0 ->
  locked (hexec hash (h_init nd nm) (requested pre)) = false ->
  exists s, w_run hash s0 (EWait :: repeat EDone (length (requested pre) - ended pre) ++ (if reporting false pre then [ERepEnd] else [])) = Some s /\ fired s (nwaits pre).
Proof.
  intros hash nd nm pre s0 E0 L. assert (I0 := inv_run _ _ _ _ _ _ _ (inv_init hash nd nm) E0). cbn [app] in I0.
  assert (G : forall n es s, inv hash nd nm es s -> requested es = requested pre -> ended es + n <= length (requested pre) ->
    exists s', w_run hash s (repeat EDone n) = Some s' /\ wrep s' = wrep s).
  { induction n as [|n IH]; intros es s I R B; [exists s; split; reflexivity|]. cbn [repeat w_run].
    assert (PL : forall k, locked (hexec hash (h_init nd nm) (firstn k (requested pre))) = false).
    { intros k. destruct (locked (hexec hash (h_init nd nm) (firstn k (requested pre)))) eqn:LK; [|reflexivity].
      rewrite <- (firstn_skipn k (requested pre)) in L. assert (A : forall a b h, hexec hash h (a ++ b) = hexec hash (hexec hash h a) b) by (induction a as [|x a IHa]; intros b h; [reflexivity|apply IHa]).
      rewrite A, hexec_locked in L by exact LK. discriminate. }
    assert (L1 : locked (wh s) = false) by (rewrite (i_hist _ _ _ _ _ I), R; apply PL).
    assert (S : exists t, w_step hash s EDone = Some t /\ wrep t = wrep s).
    { assert (O := i_ops _ _ _ _ _ I). unfold released in O. rewrite L1, Nat.sub_0_r, R in O. assert (HD := i_head _ _ _ _ _ I).
      cbn [w_step]. destruct (wq s) as [|[op|id] q]; [| |contradiction].
      - cbn in O. symmetry in O. apply (f_equal (@length _)) in O. rewrite skipn_length in O. cbn in O. lia.
      - rewrite L1. destruct (locked (fst (hstep hash (wh s) op))); [eexists; split; reflexivity|]. destruct (drain q). eexists; split; reflexivity. }
    destruct S as (t & S & ST). rewrite S. destruct (IH (es ++ [EDone]) t) as (s' & A1 & A2).
    - eapply inv_step; eauto.
    - rewrite requested_app. cbn [requested]. now rewrite app_nil_r.
    - rewrite ended_app. cbn [ended]. lia.
    - exists s'. split; [exact A1|congruence]. }
  cbn [w_run]. destruct (w_step hash s0 EWait) as [s1|] eqn:E1.
  2: { cbn [w_step] in E1. destruct (wrun s0) as [[]|]; discriminate. }
  assert (I1 := inv_step _ _ _ _ _ _ _ I0 E1). assert (LE := i_le _ _ _ _ _ I0).
  destruct (G (length (requested pre) - ended pre) (pre ++ [EWait]) s1 I1) as (s2 & E2 & W2).
  { rewrite requested_app. cbn. now rewrite app_nil_r. }
  { rewrite ended_app. cbn. lia. }
  assert (W1 : wrep s1 = reporting false pre).
  { rewrite (i_rep _ _ _ _ _ I1), reporting_app. reflexivity. }
  set (tail := if reporting false pre then [ERepEnd] else []).
  assert (E3 : exists s3, w_run hash s2 tail = Some s3).
  { unfold tail. destruct (reporting false pre) eqn:RP; [|eexists; reflexivity]. cbn [w_run w_step]. rewrite W2, W1. eexists; reflexivity. }
  destruct E3 as [s3 E3]. exists s3.
  assert (EE : w_run hash s1 (repeat EDone (length (requested pre) - ended pre) ++ tail) = Some s3) by (rewrite w_run_app, E2; exact E3).
  split; [exact EE|].
  assert (E' : w_run hash (w_init nd nm) (pre ++ EWait :: repeat EDone (length (requested pre) - ended pre) ++ tail) = Some s3) by (rewrite w_run_app, E0; cbn [w_run]; rewrite E1; exact EE).
  apply (C103_fires _ _ _ _ _ _ E'). destruct (C103_serial _ _ _ _ _ E') as [_ H].
  assert (RQ : requested (repeat EDone (length (requested pre) - ended pre) ++ tail) = []).
  { rewrite requested_app. unfold tail. destruct (reporting false pre); cbn [requested]; rewrite app_nil_r; generalize (length (requested pre) - ended pre) as k; induction k; auto. }
  assert (EN : forall k, ended (repeat EDone k) = k) by (induction k; cbn; auto).
  assert (EA : ended (pre ++ EWait :: repeat EDone (length (requested pre) - ended pre) ++ tail) = length (requested pre)).
  { rewrite ended_app. cbn [ended]. rewrite ended_app, EN. unfold tail. destruct (reporting false pre); cbn [ended]; lia. }
  rewrite requested_app in H. cbn [requested] in H. rewrite RQ, app_nil_r, EA, firstn_all in H. rewrite H, L, EA.
  right. split; [lia|]. unfold tail. destruct (reporting false pre); [|now left]. right. left. apply in_or_app. right. now left.
Qed.

(** two adds outstanding, a report in progress: the wait fires at the end of both, and not
    before; the add of a NaN is not waited for *)
Definition ex_es : list ev := [EInit; EReq (addp 3); EReq (addn 4); ERepStart; EReq (OAdd fnan (mkInd fnan []) false o0); EWait; EDone; EReq (addn 5); ERepEnd].
Example C103_example : is_running ex_es /\ length (requested ex_es) = 3 /\
  option_map waits (w_run hash0 (w_init 1 10) ex_es) = Some [(false, true)] /\
  option_map waits (w_run hash0 (w_init 1 10) (ex_es ++ [EDone])) = Some [(true, true)] /\
  option_map (fun s => length (K (wh s))) (w_run hash0 (w_init 1 10) (ex_es ++ [EDone])) = Some 2.
Proof.
  split; [split; [now left|intros H; repeat (destruct H as [H|H]; [discriminate H|]); exact H]|].
  split; [vm_compute; reflexivity|]. split; [vm_compute; reflexivity|]. split; vm_compute; reflexivity.
Qed.
Example C103_hang_example : option_map waits (w_run hash0 (w_init 1 10) [EInit; EReq (addp 3); EReq (OAdd (iSSE huge) huge false o0); EWait; EDone; EDone; EReq (addn 4); EWait; EAbort; EWait])
  = Some [(false, true); (false, true); (true, true)].
Proof. vm_compute. reflexivity. Qed.

Print Assumptions C103_serial.
Print Assumptions C103_fires.
Print Assumptions C103_applied.
Print Assumptions C103_progress.
Print Assumptions C103_hang_refuted.
Print Assumptions C103_hang_reached_refuted.
