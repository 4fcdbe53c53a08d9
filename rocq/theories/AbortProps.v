(** * Properties of ade/abort.py: C47 *)
From Coq Require Import List Bool Arith Lia Permutation.
From Verif Require Import AbortModel.
Import ListNotations.

Definition funcs (l : list delayed) : list nat := flat_map (fun d => match d with DFunc f => [f] | DAbort => [] end) l.
Lemma funcs_app : forall a b, funcs (a ++ b) = funcs a ++ funcs b. Proof. intros. apply flat_map_app. Qed.
Definition allcbs (l : list kbd) : list nat := concat (map k_cbs l).
Lemma allcbs_app : forall a b, allcbs (a ++ b) = allcbs a ++ allcbs b. Proof. intros. unfold allcbs. now rewrite map_app, concat_app. Qed.
Lemma set_nth_split : forall A (l : list A) n x y, nth_error l n = Some x -> exists a b, l = a ++ x :: b /\ length a = n /\ set_nth l n y = a ++ y :: b.
Proof.
  intros A l n x y H. destruct (nth_error_split _ _ H) as (a & b & -> & L). exists a, b. split; auto. split; auto. unfold set_nth. rewrite H. subst n.
  rewrite firstn_app, firstn_all, Nat.sub_diag. cbn [firstn]. rewrite app_nil_r. f_equal. f_equal. rewrite skipn_app. rewrite skipn_all2 by lia.
  replace (S (length a) - length a) with 1 by lia. reflexivity.
Qed.
Lemma set_nth_len : forall A (l : list A) n y, length (set_nth l n y) = length l.
Proof.
  intros A l n y. destruct (nth_error l n) as [x|] eqn:E; [destruct (set_nth_split _ _ _ _ y E) as (a & b & -> & _ & ->); now rewrite !app_length|unfold set_nth; now rewrite E].
Qed.
Lemma nth_set_nth : forall A (l : list A) n y, n < length l -> nth_error (set_nth l n y) n = Some y.
Proof.
  intros A l n y H. destruct (nth_error l n) as [x|] eqn:E; [|apply nth_error_None in E; lia]. destruct (set_nth_split _ _ _ _ y E) as (a & b & -> & L & ->).
  rewrite nth_error_app2 by lia. now rewrite L, Nat.sub_diag.
Qed.
Lemma nth_set_other : forall A (l : list A) n m y, n <> m -> nth_error (set_nth l n y) m = nth_error l m.
Proof.
  intros A l n m y H. destruct (nth_error l n) as [x|] eqn:E; [|unfold set_nth; now rewrite E]. destruct (set_nth_split _ _ _ _ y E) as (a & b & -> & L & ->).
  destruct (Nat.lt_ge_cases m (length a)); [now rewrite !nth_error_app1|]. rewrite !nth_error_app2 by lia. destruct (m - length a) eqn:D; [lia|reflexivity].
Qed.

(** ** nothing runs twice, nothing is forgotten *)
Definition wf (s : abst) : Prop := forall n, cur s = Some n -> n < length (kbs s).
(** [rest]: delayed calls taken out and not run yet *)
Definition J (rest : list nat) (s : abst) : Prop :=
  wf s /\ Permutation (regd s) (ran s ++ allcbs (kbs s) ++ funcs (pend s) ++ rest).
Lemma J_upd : forall rest s n g, J rest s -> (forall k, k_cbs (g k) = k_cbs k) -> J rest (upd_kbd s n g).
Proof.
  intros rest s n g [W P] H. unfold upd_kbd. destruct (nth_error (kbs s) n) as [k|] eqn:E; [|split; auto].
  destruct (set_nth_split _ _ _ _ (g k) E) as (a & b & A & L & S). split.
  - intros m M. cbn [cur kbs] in *. rewrite set_nth_len. auto.
  - cbn [regd ran kbs pend]. rewrite S. rewrite A in P. rewrite allcbs_app in *. unfold allcbs in *. cbn [map concat] in *. now rewrite H.
Qed.
Lemma J_setkb : forall rest s, J rest s -> J rest (set_kb s).
Proof.
  intros rest s [W P]. unfold set_kb. split.
  - intros n N. cbn [cur kbs] in *. injection N as <-. rewrite app_length. simpl. lia.
  - cbn [regd ran kbs pend]. rewrite allcbs_app. cbn. now rewrite app_nil_r.
Qed.
Lemma J_holder : forall rest s, J rest s -> J rest (holder s).
Proof. intros. unfold holder. destruct (cur s); auto. now apply J_setkb. Qed.
Lemma holder_cur : forall s, exists n, cur (holder s) = Some n.
Proof. intros. unfold holder. destruct (cur s) eqn:E; eauto. simpl. eauto. Qed.
Lemma J_reg : forall rest s f, J rest s -> J rest (call_on_abort s f).
Proof.
  intros rest s f H. apply J_holder in H. unfold call_on_abort. cbv zeta. destruct (holder_cur s) as [n N]. set (t := holder s) in *. clearbody t.
  cbn [note_reg cur kbs]. rewrite N. destruct H as [W P]. assert (L := W n N). destruct (nth_error (kbs t) n) as [k|] eqn:E; [|apply nth_error_None in E; lia].
  destruct (k_open k).
  - unfold add_cb, upd_kbd. cbn [note_reg kbs cur pend ran regd]. rewrite E. destruct (set_nth_split _ _ _ _ (mkKbd (k_open k) (k_ignore k) (k_cbs k ++ [f])) E) as (a & b & A & La & S). split.
    + intros m M. cbn [cur kbs] in *. rewrite set_nth_len. auto.
    + cbn [regd ran kbs pend]. rewrite S. rewrite A in P. rewrite allcbs_app in *. unfold allcbs in *. cbn [map concat k_cbs] in *.
      rewrite P. rewrite <- !app_assoc. cbn [app]. apply Permutation_app_head. apply Permutation_app_head. apply Permutation_app_head.
      rewrite !app_assoc. symmetry. apply Permutation_cons_append.
  - split; [exact W|]. cbn [later note_reg regd ran kbs pend]. rewrite funcs_app. cbn [funcs flat_map app]. rewrite P. rewrite <- !app_assoc. cbn [app].
    apply Permutation_app_head. apply Permutation_app_head. apply Permutation_app_head. symmetry. apply Permutation_cons_append.
Qed.
Lemma J_act : forall rest s a, J rest s -> J rest (do_act s a).
Proof.
  intros rest s [f| | | |] H; cbn [do_act].
  - now apply J_reg.
  - unfold m_shutdown. destruct (cur s); auto. now apply J_upd.
  - unfold m_abort_now. apply J_holder in H. destruct H as [W P]. split; [exact W|]. cbn [later regd ran kbs pend]. rewrite funcs_app. cbn. now rewrite app_nil_r.
  - now apply J_setkb.
  - unfold m_ignore. apply J_holder in H. cbv zeta. destruct (cur (holder s)); auto. now apply J_upd.
Qed.
Lemma J_acts : forall rest l s, J rest s -> J rest (fold_left do_act l s).
Proof. intros rest. induction l; simpl; auto. intros. apply IHl. now apply J_act. Qed.
Section B.
Variable body : nat -> nat -> list act * bool.
Lemma J_run : forall rest s f, J (f :: rest) s -> J rest (fst (run_cb body s f)).
Proof.
  intros rest s f [W P]. unfold run_cb. destruct (body f (length (ran s))) as [l r]. cbn [fst]. apply J_acts. split; [exact W|]. cbn [regd ran kbs pend].
  rewrite P. rewrite <- !app_assoc. apply Permutation_app_head. cbn [app]. rewrite !app_assoc. symmetry. apply Permutation_middle.
Qed.
Lemma J_drain : forall fuel n rest s s' r, J rest s -> drain body fuel n s = Some (s', r) -> J rest s'.
Proof.
  induction fuel as [|fuel IH]; intros n rest s s' r H E; [discriminate|]. cbn [drain] in E. destruct (nth_error (kbs s) n) as [k|] eqn:K; [|injection E as <- <-; auto].
  destruct (k_cbs k) as [|f l] eqn:C; [injection E as <- <-; auto|].
  set (t := upd_kbd s n (fun k => mkKbd (k_open k) (k_ignore k) l)) in *. assert (HJ : J (f :: rest) t).
  { destruct H as [W P]. subst t. unfold upd_kbd. rewrite K. destruct (set_nth_split _ _ _ _ (mkKbd (k_open k) (k_ignore k) l) K) as (a & b & A & L & S). split.
    - intros m M. cbn [cur kbs] in *. rewrite set_nth_len. auto.
    - cbn [regd ran kbs pend]. rewrite S. rewrite A in P. rewrite allcbs_app in *. unfold allcbs in *. cbn [map concat k_cbs] in *. rewrite C in P. rewrite P.
      apply Permutation_app_head. rewrite <- !app_assoc. apply Permutation_app_head. cbn [app]. rewrite !app_assoc. apply Permutation_middle. }
  apply J_run in HJ. destruct (run_cb body t f) as [u raised]. cbn [fst] in HJ. destruct raised; [injection E as <- <-; auto|]. eapply IH; eauto.
Qed.
Lemma J_data : forall fuel n rest s s', J rest s -> data_received body fuel n s = Some s' -> J rest s'.
Proof.
  intros fuel n rest s s' H E. unfold data_received in E. destruct (nth_error (kbs s) n) as [k|]; [|injection E as <-; auto]. destruct (k_ignore k); [injection E as <-; auto|].
  destruct (drain body fuel n s) as [[t []]|] eqn:D; [| |discriminate]; injection E as <-; [eapply J_drain; eauto|]. apply J_upd; auto. eapply J_drain; eauto.
Qed.
Lemma J_delayed : forall fuel l s s', J (funcs l) s -> run_delayed body fuel l s = Some s' -> J [] s'.
Proof.
  intros fuel. induction l as [|[f|] l IH]; intros s s' H E; cbn [run_delayed] in E.
  - injection E as <-. exact H.
  - eapply IH; [|exact E]. apply J_run. exact H.
  - destruct (cur s) as [n|]; [|eapply IH; eauto]. destruct (data_received body fuel n s) as [t|] eqn:D; [|discriminate]. eapply IH; [|exact E]. eapply J_data; eauto.
Qed.
Lemma J_step : forall fuel s e s', J [] s -> ab_step body fuel s e = Some s' -> J [] s'.
Proof.
  intros fuel s [a|n| |] s' H E; cbn [ab_step] in E.
  - injection E as <-. now apply J_act.
  - eapply J_data; eauto.
  - eapply J_delayed; [|exact E]. destruct H as [W P]. split; [exact W|]. cbn [regd ran kbs pend]. cbn. rewrite app_nil_r in P. exact P.
  - injection E as <-. generalize (seq 0 (length (kbs s))). intros l. revert s H. induction l; simpl; auto. intros. apply IHl. now apply J_upd.
Qed.
Lemma J_exec : forall fuel es s s', J [] s -> ab_exec body fuel s es = Some s' -> J [] s'.
Proof.
  intros fuel. induction es as [|e es IH]; intros s s' H E; cbn [ab_exec] in E; [injection E as <-; auto|].
  destruct (ab_step body fuel s e) as [t|] eqn:D; [|discriminate]. eapply IH; [|exact E]. eapply J_step; eauto.
Qed.
End B.
Lemma J_init : J [] ab_init. Proof. split; [intros n; discriminate|]. constructor. Qed.

(** Whatever is registered, pressed, aborted, shut down, restarted, ignored,
    and whatever the callbacks do: every registration has run once, or waits
    in the list of one keyboard or as a delayed call *)
Theorem C47_once : forall body fuel es s, ab_exec body fuel ab_init es = Some s ->
  Permutation (regd s) (ran s ++ concat (map k_cbs (kbs s)) ++ flat_map (fun d => match d with DFunc f => [f] | DAbort => [] end) (pend s)) /\
  (forall f, count_occ Nat.eq_dec (ran s) f <= count_occ Nat.eq_dec (regd s) f).
Proof.
  intros body fuel es s E. destruct (J_exec body fuel es _ _ J_init E) as [_ P]. rewrite app_nil_r in P. split; [exact P|].
  intros f. rewrite (Permutation_count_occ Nat.eq_dec) in P. rewrite (P f). rewrite count_occ_app. lia.
Qed.
Print Assumptions C47_once.

(** ** order *)
(** callbacks that only register others or call abortNow, and do not raise *)
Definition mild (body : nat -> nat -> list act * bool) : Prop :=
  forall f n, snd (body f n) = false /\ forall a, In a (fst (body f n)) -> a = AAbortNow \/ exists g, a = AReg g.
Definition mild_ev (e : aev) : Prop :=
  match e with VCall (AReg _) | VCall AAbortNow | VTick => True | VKey n => n = 0 | _ => False end.
Definition G (rest : list nat) (s : abst) : Prop :=
  (kbs s = [] /\ cur s = None /\ pend s = [] /\ rest = [] /\ ran s = [] /\ regd s = []) \/
  (cur s = Some 0 /\ exists k, kbs s = [k] /\ k_ignore k = false /\
    (k_open k = true -> funcs (pend s) = [] /\ rest = []) /\ (k_open k = false -> k_cbs k = []) /\
    regd s = ran s ++ k_cbs k ++ rest ++ funcs (pend s)).
Definition opened (s : abst) : Prop := exists k, kbs s = [k] /\ k_open k = true.
Lemma G_holder : forall rest s, G rest s -> G rest (holder s) /\ cur (holder s) = Some 0 /\ (cur s = Some 0 -> holder s = s).
Proof.
  intros rest s [(A & B & C & D & E & F)|(B & k & R)].
  - unfold holder. rewrite B. split; [|split; [simpl; now rewrite A|discriminate]]. right. cbn [set_kb cur kbs pend ran regd]. rewrite A, C, D, E, F. split; auto. exists new_kbd. cbn. repeat split; auto.
  - unfold holder. rewrite B. split; auto. right. split; auto. exists k. exact R.
Qed.
Lemma G_act : forall rest s a, G rest s -> (a = AAbortNow \/ exists g, a = AReg g) ->
  G rest (do_act s a) /\ ran (do_act s a) = ran s /\ (opened s -> opened (do_act s a)) /\ (cur s = Some 0 -> cur (do_act s a) = Some 0).
Proof.
  intros rest s a H HA. destruct (G_holder rest s H) as (HG & HC & HS).
  assert (RH : ran (holder s) = ran s) by (unfold holder; destruct (cur s); reflexivity).
  assert (OH : opened s -> opened (holder s)).
  { intros (k & K1 & K2). destruct H as [(A & _)|(B & _)]; [congruence|]. rewrite HS by auto. now exists k. }
  destruct HA as [->|[g ->]]; cbn [do_act].
  - unfold m_abort_now. set (t := holder s) in *. clearbody t. destruct HG as [(_ & B & _)|(B & k & K & I & O1 & O2 & E)]; [congruence|]. split; [|split; [exact RH|split; [|auto]]].
    + right. split; [exact B|]. exists k. cbn [later kbs pend ran regd]. rewrite funcs_app. cbn [funcs flat_map]. rewrite app_nil_r. auto.
    + intros X. apply OH in X. exact X.
  - unfold call_on_abort. cbv zeta. set (t := holder s) in *. clearbody t. destruct HG as [(_ & B & _)|(B & k & K & I & O1 & O2 & E)]; [congruence|].
    cbn [note_reg cur kbs]. rewrite B, K. cbn [nth_error]. destruct (k_open k) eqn:O.
    + unfold add_cb, upd_kbd. cbn [note_reg kbs cur pend ran regd]. rewrite K. cbn [nth_error]. unfold set_nth. cbn [nth_error firstn skipn app]. destruct (O1 eq_refl) as [P1 P2]. split; [|split; [exact RH|split; [|auto]]].
      * right. cbn [cur kbs pend ran regd]. split; auto. eexists. split; [reflexivity|]. cbn [k_ignore k_open k_cbs]. rewrite O. split; auto. split; auto. split; [discriminate|].
        rewrite E, P1, P2. cbn [app]. rewrite !app_nil_r. now rewrite app_assoc.
      * intros _. eexists. cbn [kbs]. split; [reflexivity|]. exact O.
    + split; [|split; [exact RH|split; [|auto]]].
      * right. cbn [later note_reg cur kbs pend ran regd]. split; auto. exists k. split; auto. split; auto. split; [congruence|]. split; auto.
        rewrite E, funcs_app. cbn [funcs flat_map]. now rewrite <- !app_assoc.
      * intros X. apply OH in X. destruct X as (k' & K1 & K2). exfalso. congruence.
Qed.
Lemma G_acts : forall rest l s, G rest s -> (forall a, In a l -> a = AAbortNow \/ exists g, a = AReg g) ->
  G rest (fold_left do_act l s) /\ ran (fold_left do_act l s) = ran s /\ (opened s -> opened (fold_left do_act l s)) /\ (cur s = Some 0 -> cur (fold_left do_act l s) = Some 0).
Proof.
  intros rest. induction l as [|a l IH]; intros s H HA; [simpl; auto|]. cbn [fold_left]. destruct (G_act rest s a H) as (A & B & C & D); [apply HA; simpl; auto|].
  destruct (IH _ A) as (A' & B' & C' & D'); [intros; apply HA; simpl; auto|]. split; auto. split; [congruence|]. auto.
Qed.
Section M.
Variable body : nat -> nat -> list act * bool.
Hypothesis Mild : mild body.
Lemma G_drain : forall fuel s s' r, G [] s -> opened s -> drain body fuel 0 s = Some (s', r) ->
  G [] s' /\ r = false /\ exists k, kbs s' = [k] /\ k_open k = true /\ k_cbs k = [].
Proof.
  induction fuel as [|fuel IH]; intros s s' r H O E; [discriminate|]. cbn [drain] in E. destruct O as (k & K & O). rewrite K in E. cbn [nth_error] in E.
  destruct (k_cbs k) as [|f l] eqn:C; [injection E as <- <-; split; auto; split; auto; exists k; auto|].
  destruct H as [(A & _)|(B & k' & K' & I & O1 & O2 & R)]; [congruence|]. rewrite K in K'. injection K' as <-. destruct (O1 O) as [P1 _].
  unfold upd_kbd in E. rewrite K in E. cbn [nth_error] in E. unfold set_nth in E. cbn [nth_error firstn skipn app] in E. unfold run_cb in E. cbn [ran kbs cur pend regd] in E.
  destruct (Mild f (length (ran s))) as [M1 M2]. destruct (body f (length (ran s))) as [acts raises]. cbn [fst snd] in *. subst raises.
  match type of E with drain _ _ _ (fold_left _ _ ?x) = _ => set (t := x) in * end.
  assert (Gt : G [] t). { right. subst t. cbn [cur kbs pend ran regd]. split; auto. eexists. split; [reflexivity|]. cbn [k_ignore k_open k_cbs]. rewrite O. split; auto. split; auto. split; [discriminate|].
    rewrite R, C. rewrite <- !app_assoc. reflexivity. }
  assert (Ot : opened t). { eexists. split; [reflexivity|]. exact O. }
  destruct (G_acts [] acts t Gt M2) as (A1 & A2 & A3 & _). eapply IH; [exact A1|auto|exact E].
Qed.
Lemma data0 : forall fuel s s', G [] s -> data_received body fuel 0 s = Some s' -> G [] s' /\ (opened s -> ran s' = regd s' /\ ~ opened s') /\ (~ opened s -> s' = s).
Proof.
  intros fuel s s' H E. unfold data_received in E. destruct H as [(A & B)|(B & k & K & I & O1 & O2 & R)].
  - rewrite A in E. cbn [nth_error] in E. injection E as <-. split; [left; auto|]. split; auto. intros (k & K & _). congruence.
  - rewrite K in E. cbn [nth_error] in E. rewrite I in E. destruct (k_open k) eqn:O.
    + destruct (drain body fuel 0 s) as [[t r]|] eqn:D; [|discriminate]. assert (Os : opened s) by (exists k; auto).
      destruct (G_drain fuel s t r) as (A1 & -> & k' & K' & O' & C'); auto. { right. split; auto. exists k. rewrite O. auto. }
      injection E as <-. unfold kb_shutdown, upd_kbd. rewrite K'. cbn [nth_error]. unfold set_nth. cbn [nth_error firstn skipn app].
      destruct A1 as [(A & _)|(B1 & k1 & K1 & I1 & P1 & P2 & R1)]; [congruence|]. rewrite K' in K1. injection K1 as <-. destruct (P1 O') as [Q1 _]. split; [|split; [|intros X; contradiction]].
      * right. cbn [cur kbs pend ran regd]. split; auto. eexists. split; [reflexivity|]. cbn [k_ignore k_open k_cbs]. auto.
      * intros _. cbn [ran regd]. split; [rewrite R1, C', Q1; cbn; now rewrite app_nil_r|]. intros (k2 & K2 & O2'). cbn [kbs] in K2. injection K2 as <-. discriminate.
    + assert (C : k_cbs k = []) by auto. destruct fuel as [|fuel]; [discriminate|]. cbn [drain] in E. rewrite K in E. cbn [nth_error] in E. rewrite C in E.
      assert (S : kb_shutdown s 0 = s). { unfold kb_shutdown, upd_kbd. rewrite K. cbn [nth_error]. unfold set_nth. cbn [nth_error firstn skipn app].
        destruct s as [kk cc pp rr gg]. cbn [kbs cur pend ran regd] in *. subst kk. f_equal. f_equal. destruct k as [ka kb kc]; cbn [k_open k_ignore k_cbs] in *; subst; reflexivity. }
      rewrite S in E. injection E as <-. split; [right; split; auto; exists k; rewrite O; auto|]. split; auto. intros (k2 & K2 & O2'). rewrite K in K2. injection K2 as <-. congruence.
Qed.
Lemma G_data_rest : forall fuel rest s s', G rest s -> data_received body fuel 0 s = Some s' -> G rest s' /\ cur s' = cur s.
Proof.
  intros fuel rest s s' H E. assert (H' := H). destruct H' as [(A & B & C & D & F & F')|(B & k & K & I & O1 & O2 & R)].
  - subst rest. unfold data_received in E. rewrite A in E. cbn [nth_error] in E. injection E as <-. split; auto.
  - destruct (k_open k) eqn:O.
    + destruct (O1 eq_refl) as [_ ->]. destruct (data0 fuel s s' H E) as [X _]. split; auto. rewrite B. assert (Os : opened s) by (exists k; auto).
      unfold data_received in E. rewrite K in E. cbn [nth_error] in E. rewrite I in E. destruct (drain body fuel 0 s) as [[t r]|] eqn:Dr; [|discriminate].
      destruct (G_drain fuel s t r H Os Dr) as (Y & -> & k' & K' & _ & _). injection E as <-. unfold kb_shutdown, upd_kbd. rewrite K'. cbn [nth_error cur].
      destruct Y as [(Y & _)|(Y & _)]; congruence.
    + assert (E' : s' = s).
      { unfold data_received in E. rewrite K in E. cbn [nth_error] in E. rewrite I in E. assert (C : k_cbs k = []) by auto. destruct fuel as [|fuel]; [discriminate|]. cbn [drain] in E. rewrite K in E. cbn [nth_error] in E. rewrite C in E. injection E as <-.
        unfold kb_shutdown, upd_kbd. rewrite K. cbn [nth_error]. unfold set_nth. cbn [nth_error firstn skipn app]. destruct s as [kk cc pp rr gg]. cbn [kbs cur pend ran regd] in *. subst kk. f_equal. f_equal. destruct k as [ka kb kc]; cbn [k_open k_ignore k_cbs] in *; subst; reflexivity. }
      subst s'. auto.
Qed.
Lemma G_delayed : forall fuel l s s', G (funcs l) s -> (l <> [] -> cur s = Some 0) -> run_delayed body fuel l s = Some s' -> G [] s'.
Proof.
  intros fuel. induction l as [|[f|] l IH]; intros s s' H HC E; cbn [run_delayed] in E.
  - injection E as <-. exact H.
  - cbn [funcs flat_map app] in H. fold (funcs l) in H. unfold run_cb in E. destruct (Mild f (length (ran s))) as [_ M2]. destruct (body f (length (ran s))) as [acts raises]. cbn [fst snd] in *.
    match type of E with run_delayed _ _ _ (fold_left _ _ ?x) = _ => set (t := x) in * end.
    destruct H as [(_ & _ & _ & D & _)|(B & k & K & I & O1 & O2 & R)]; [discriminate|].
    assert (Gt : G (funcs l) t).
    { right. subst t. cbn [cur kbs pend ran regd]. split; auto. exists k. split; auto. split; auto. split; [intros O; destruct (O1 O); discriminate|]. split; auto. 
      destruct (k_open k) eqn:O; [destruct (O1 eq_refl); discriminate|]. rewrite R, (O2 eq_refl). cbn [app]. now rewrite <- app_assoc. }
    destruct (G_acts _ acts t Gt M2) as (A1 & _ & _ & A4). eapply IH; [exact A1|intros _; apply A4; exact B|exact E].
  - cbn [funcs flat_map app] in H. fold (funcs l) in H. rewrite HC in E by discriminate. destruct (data_received body fuel 0 s) as [t|] eqn:D; [|discriminate].
    destruct (G_data_rest _ _ _ _ H D) as [A B]. eapply IH; [exact A|intros _; rewrite B; apply HC; discriminate|exact E].
Qed.
Lemma G_step : forall fuel s e s', G [] s -> mild_ev e -> ab_step body fuel s e = Some s' -> G [] s'.
Proof.
  intros fuel s e s' H M E. destruct e as [[f| | | |]|n| |]; cbn [mild_ev] in M; try contradiction; cbn [ab_step] in E.
  - injection E as <-. apply (G_act [] s (AReg f)); eauto.
  - injection E as <-. apply (G_act [] s AAbortNow); auto.
  - subst n. now apply (data0 fuel s s').
  - eapply G_delayed; [| |exact E].
    + destruct H as [(A & B & C & D & F & F')|(B & k & K & I & O1 & O2 & R)].
      * left. cbn. rewrite C. repeat split; auto.
      * right. cbn [cur kbs pend ran regd]. split; auto. exists k. split; auto. split; auto. split; [intros O; destruct (O1 O); auto|]. split; auto. rewrite R. cbn. now rewrite app_nil_r.
    + cbn [cur]. intros N. destruct H as [(A & B & C & D & F & F')|(B & _)]; [congruence|auto].
Qed.
Lemma G_exec : forall fuel es s s', G [] s -> Forall mild_ev es -> ab_exec body fuel s es = Some s' -> G [] s'.
Proof.
  intros fuel. induction es as [|e es IH]; intros s s' H F E; cbn [ab_exec] in E; [injection E as <-; auto|]. inversion F; subst.
  destruct (ab_step body fuel s e) as [t|] eqn:D; [|discriminate]. eapply IH; [|eauto|exact E]. eapply G_step; eauto.
Qed.
End M.
Lemma G_init : G [] ab_init. Proof. left. repeat split; auto. Qed.

(** Registrations, key presses, abortNow and delayed calls, with callbacks
    that only register others or call abortNow: callbacks run in the order in
    which they were registered, wherever they were registered *)
Theorem C47_order : forall body fuel es s, mild body -> Forall mild_ev es -> ab_exec body fuel ab_init es = Some s ->
  exists waiting, regd s = ran s ++ waiting.
Proof.
  intros body fuel es s M F E. destruct (G_exec body M fuel es _ _ G_init F E) as [(A & B & C & D & X & Y)|(B & k & K & I & O1 & O2 & R)]; [exists []; now rewrite X, Y|].
  rewrite R. eexists. reflexivity.
Qed.
Print Assumptions C47_order.
(** the first key press runs everything that was registered and everything
    those callbacks register, and a later one nothing; what is registered
    afterwards runs with the next delayed calls *)
Theorem C47_enter : forall body fuel es s s1, mild body -> Forall mild_ev es -> ab_exec body fuel ab_init es = Some s ->
  cur s <> None -> ab_step body fuel s (VKey 0) = Some s1 ->
  (~ In (VKey 0) es -> ~ In (VCall AAbortNow) es -> ran s = [] /\ ran s1 = regd s1 /\ exists more, regd s1 = regd s ++ more) /\
  ab_step body fuel s1 (VKey 0) = Some s1 /\
  (forall fs s2, ab_exec body fuel s1 (map (fun f => VCall (AReg f)) fs) = Some s2 -> ran s2 = ran s1) /\
  (forall s3, ab_step body fuel s1 VTick = Some s3 -> ran s3 = regd s1).
Proof.
  intros body fuel es s s1 M F E NC E1. assert (Gs := G_exec body M fuel es _ _ G_init F E). cbn [ab_step] in E1. destruct (data0 body M fuel s s1 Gs E1) as (G1 & D1 & D2).
  assert (FU : exists m, fuel = S m).
  { destruct fuel; [|eauto]. exfalso. destruct Gs as [(_ & B & _)|(B & k & K & I & _)]; [congruence|]. unfold data_received in E1. rewrite K in E1. cbn [nth_error] in E1. rewrite I in E1. discriminate. }
  destruct FU as [m Fm].
  assert (CL : ~ opened s1). { assert (Dec : opened s \/ ~ opened s). { destruct (kbs s) as [|k [|]] eqn:K; [right; intros (k & X & _); congruence| |right; intros (k' & X & _); congruence].
      destruct (k_open k) eqn:O; [left; exists k; auto|right; intros (k' & X & Y); congruence]. }
    destruct Dec as [O|O]; [now apply D1|]. now rewrite (D2 O). }
  assert (C1 : exists k, cur s1 = Some 0 /\ kbs s1 = [k] /\ k_open k = false /\ k_ignore k = false /\ k_cbs k = [] /\ regd s1 = ran s1 ++ funcs (pend s1)).
  { destruct G1 as [(A & _)|(B & k & K & I & O1 & O2 & R)].
    - exfalso. assert (X : kbs s <> []). { destruct Gs as [(_ & B & _)|(_ & k & K & _)]; congruence. }
      destruct (G_data_rest body M fuel [] s s1 Gs E1) as [[(_ & Y & _)|(_ & k & K & _)] Z]; [rewrite Y in Z; congruence|congruence].
    - exists k. destruct (k_open k) eqn:O; [exfalso; apply CL; exists k; auto|]. repeat split; auto. rewrite R, (O2 eq_refl). reflexivity. }
  destruct C1 as (k & C1 & K1 & O1 & I1 & N1 & R1). split; [|split; [|split]].
  - intros NK NA.
    assert (Q : forall es s0 t, (kbs s0 = [] \/ opened s0) -> ran s0 = [] -> pend s0 = [] -> G [] s0 -> Forall mild_ev es -> ~ In (VKey 0) es -> ~ In (VCall AAbortNow) es -> ab_exec body fuel s0 es = Some t -> ran t = [] /\ pend t = [] /\ (kbs t = [] \/ opened t)).
    { clear - M Fm. induction es as [|e es IH]; intros s0 t OP R P Gq F NK NA E; cbn [ab_exec] in E; [injection E as <-; auto|]. inversion F; subst.
      assert (NK' : ~ In (VKey 0) es) by (intros X; apply NK; simpl; auto). assert (NA' : ~ In (VCall AAbortNow) es) by (intros X; apply NA; simpl; auto).
      destruct (ab_step body (S m) s0 e) as [u|] eqn:D; [|discriminate]. assert (Gu := G_step body M (S m) s0 e u Gq H1 D).
      destruct e as [[f| | | |]|n| |]; cbn [mild_ev] in H1; try contradiction; try (exfalso; apply NA; simpl; auto; fail); [| |].
      - cbn [ab_step] in D. injection D as <-. cbn [do_act] in *. apply IH with (5 := H2) (8 := E); auto.
        + right. destruct OP as [OP|OP].
          * unfold call_on_abort, holder. destruct Gq as [(A & B & _)|(B & k & K & _)]; [|congruence]. rewrite B. cbn [set_kb note_reg cur kbs]. rewrite OP. cbn [length app nth_error new_kbd k_open]. unfold add_cb, upd_kbd. cbn [note_reg set_kb kbs]. rewrite OP. cbn. eexists. split; reflexivity.
          * apply (G_act [] s0 (AReg f)); eauto.
        + destruct (G_act [] s0 (AReg f) Gq) as (_ & X & _); eauto. cbn [do_act] in X. congruence.
        + assert (X : pend (holder s0) = []) by (unfold holder; destruct (cur s0); exact P).
          unfold call_on_abort. destruct (G_holder [] s0 Gq) as (Gh & Hc & Hs). cbn [note_reg cur kbs]. rewrite Hc.
          assert (Oh : opened (holder s0)). { destruct OP as [OP|OP]; [|destruct Gq as [(A & B & _)|(B & _)]; [destruct OP as (k & K & _); congruence|now rewrite Hs]].
            unfold holder. destruct Gq as [(A & B & _)|(B & k & K & _)]; [|congruence]. rewrite B. exists new_kbd. cbn [set_kb kbs]. rewrite OP. auto. }
          destruct Oh as (k & K & O). rewrite K. cbn [nth_error]. rewrite O. unfold add_cb, upd_kbd. cbn [note_reg kbs]. rewrite K. cbn. exact X.
      - exfalso. apply NK. subst n. simpl. auto.
      - cbn [ab_step] in D. rewrite P in D. cbn [run_delayed] in D. injection D as <-. apply IH with (5 := H2) (8 := E); auto. }
    destruct (Q es ab_init s) as (Q1 & Q2 & Q3); auto; [apply G_init|]. split; auto. destruct Q3 as [Q3|Q3]; [destruct Gs as [(_ & B & _)|(_ & k' & K & _)]; congruence|].
    destruct (D1 Q3) as [D3 _]. split; auto.
    assert (MORE : forall fuel s t r, drain body fuel 0 s = Some (t, r) -> exists more, regd t = regd s ++ more).
    { clear. assert (RA : forall a s, exists more, regd (do_act s a) = regd s ++ more).
      { intros a s. assert (RH : regd (holder s) = regd s) by (unfold holder; destruct (cur s); reflexivity). assert (UP : forall n g t, regd (upd_kbd t n g) = regd t) by (intros; unfold upd_kbd; destruct (nth_error _ _); reflexivity).
        destruct a; cbn [do_act].
        - exists [f]. unfold call_on_abort. cbv zeta. cbn [note_reg cur]. destruct (cur (holder s)); [|cbn; now rewrite RH]. cbn [note_reg kbs]. destruct (nth_error _ _); [|cbn; now rewrite RH]. destruct (k_open k); [unfold add_cb; rewrite UP|]; cbn; now rewrite RH.
        - exists []. rewrite app_nil_r. unfold m_shutdown, kb_shutdown. destruct (cur s); [apply UP|reflexivity].
        - exists []. rewrite app_nil_r. cbn. exact RH.
        - exists []. now rewrite app_nil_r.
        - exists []. rewrite app_nil_r. unfold m_ignore. cbv zeta. destruct (cur (holder s)); [now rewrite UP|exact RH]. }
      assert (RL : forall l s, exists more, regd (fold_left do_act l s) = regd s ++ more).
      { induction l as [|a l IH]; intros s; [exists []; now rewrite app_nil_r|]. cbn [fold_left]. destruct (IH (do_act s a)) as [m1 ->]. destruct (RA a s) as [m2 ->]. exists (m2 ++ m1). now rewrite app_assoc. }
      induction fuel as [|fuel IH]; intros s t r D; [discriminate|]. cbn [drain] in D. destruct (nth_error (kbs s) 0) as [k|] eqn:K; [|injection D as <- <-; exists []; now rewrite app_nil_r].
      destruct (k_cbs k); [injection D as <- <-; exists []; now rewrite app_nil_r|]. unfold run_cb in D. destruct (body n _) as [acts raises].
      match type of D with context [fold_left do_act acts ?x] => destruct (RL acts x) as [m1 M1]; assert (RX : regd x = regd s) by (cbn [regd]; unfold upd_kbd; rewrite K; reflexivity); set (y := fold_left do_act acts x) in * end.
      rewrite RX in M1. clearbody y. destruct raises; [injection D as <- <-; eauto|]. destruct (IH _ _ _ D) as [m2 ->]. rewrite M1. exists (m1 ++ m2). now rewrite app_assoc. }
    unfold data_received in E1. destruct Q3 as (k' & K & O). rewrite K in E1. cbn [nth_error] in E1. destruct (k_ignore k'); [injection E1 as <-; exists []; now rewrite app_nil_r|].
    destruct (drain body fuel 0 s) as [[t []]|] eqn:D; [| |discriminate]; injection E1 as <-; [eapply MORE; eauto|]. unfold kb_shutdown, upd_kbd. destruct (nth_error (kbs t) 0); cbn [regd]; exact (MORE _ _ _ _ D).
  - cbn [ab_step]. unfold data_received. rewrite K1. cbn [nth_error]. rewrite I1, Fm. cbn [drain]. rewrite K1. cbn [nth_error]. rewrite N1. f_equal.
    unfold kb_shutdown, upd_kbd. rewrite K1. cbn [nth_error]. unfold set_nth. cbn [nth_error firstn skipn app]. destruct s1 as [kk cc pp rr gg]. cbn [kbs cur pend ran regd] in *. subst kk. f_equal. f_equal. destruct k as [ka kb kc]; cbn [k_open k_ignore k_cbs] in *; subst; reflexivity.
  - intros fs. clear - G1. revert G1. generalize s1. induction fs as [|f fs IH]; intros t Gt s2 E; cbn [map ab_exec ab_step do_act] in E; [injection E as <-; auto|].
    destruct (G_act [] t (AReg f) Gt) as (A & B & _); eauto. cbn [do_act] in A, B. rewrite (IH _ A _ E). exact B.
  - intros s3 E3. cbn [ab_step] in E3.
    assert (Q : forall l t t', cur t = Some 0 -> (exists k, kbs t = [k] /\ k_open k = false /\ k_ignore k = false /\ k_cbs k = []) -> run_delayed body fuel l t = Some t' -> ran t' = ran t ++ funcs l).
    { clear - M Fm. assert (ACT : forall a t, cur t = Some 0 -> (exists k, kbs t = [k] /\ k_open k = false /\ k_ignore k = false /\ k_cbs k = []) -> (a = AAbortNow \/ exists g, a = AReg g) -> cur (do_act t a) = Some 0 /\ kbs (do_act t a) = kbs t /\ ran (do_act t a) = ran t).
      { intros a t C (k & K & O & _ & _) HA. assert (H : holder t = t) by (unfold holder; now rewrite C). destruct HA as [->|[g ->]]; cbn [do_act].
        - unfold m_abort_now. rewrite H. auto.
        - unfold call_on_abort. rewrite H. cbn [note_reg cur kbs]. rewrite C, K. cbn [nth_error]. rewrite O. cbn. rewrite K. auto. }
      assert (ACTS : forall l t, cur t = Some 0 -> (exists k, kbs t = [k] /\ k_open k = false /\ k_ignore k = false /\ k_cbs k = []) -> (forall a, In a l -> a = AAbortNow \/ exists g, a = AReg g) -> cur (fold_left do_act l t) = Some 0 /\ kbs (fold_left do_act l t) = kbs t /\ ran (fold_left do_act l t) = ran t).
      { induction l as [|a l IH]; intros t C K HA; [auto|]. cbn [fold_left]. destruct (ACT a t C K) as (A1 & A2 & A3); [apply HA; simpl; auto|]. destruct (IH (do_act t a)) as (B1 & B2 & B3); auto; [now rewrite A2|intros; apply HA; simpl; auto|]. repeat split; congruence. }
      induction l as [|[f|] l IH]; intros t t' C K E; cbn [run_delayed] in E; cbn [funcs flat_map app].
      - injection E as <-. now rewrite app_nil_r.
      - unfold run_cb in E. destruct (M f (length (ran t))) as [_ M2]. destruct (body f (length (ran t))) as [acts raises]. cbn [fst snd] in *. match type of E with run_delayed _ _ _ (fold_left _ _ ?x) = _ => destruct (ACTS acts x C K M2) as (A1 & A2 & A3) end.
        rewrite (IH _ _ A1 ltac:(rewrite A2; exact K) E). rewrite A3. cbn [ran]. now rewrite <- app_assoc.
      - rewrite C in E. assert (D : data_received body fuel 0 t = Some t).
        { destruct K as (k & K & O & I & N). unfold data_received. rewrite K. cbn [nth_error]. rewrite I, Fm. cbn [drain]. rewrite K. cbn [nth_error]. rewrite N. f_equal. unfold kb_shutdown, upd_kbd. rewrite K. cbn [nth_error]. unfold set_nth. cbn [nth_error firstn skipn app].
          destruct t as [kk cc pp rr gg]. cbn [kbs cur pend ran regd] in *. subst kk. f_equal. f_equal. destruct k as [ka kb kc]; cbn [k_open k_ignore k_cbs] in *; subst; reflexivity. }
        rewrite D in E. apply IH; auto. }
    assert (X := fun C K => Q _ _ _ C K E3). cbn [cur kbs ran] in X. rewrite (X C1 (ex_intro _ k (conj K1 (conj O1 (conj I1 N1))))). congruence.
Qed.
Print Assumptions C47_enter.

Definition reg2 (f n : nat) : list act * bool := if f =? 1 then ([AReg 2], false) else ([], false).
Example C47_ex : mild reg2 /\ exists s, ab_exec reg2 9 ab_init [VCall (AReg 1); VCall (AReg 3)] = Some s /\ cur s <> None /\
  exists s1, ab_step reg2 9 s (VKey 0) = Some s1 /\ ran s1 = [1; 3; 2] /\
  exists s2, ab_exec reg2 9 s1 [VCall (AReg 1); VTick; VTick] = Some s2 /\ ran s2 = [1; 3; 2; 1; 2] /\ regd s2 = [1; 3; 2; 1; 2].
Proof.
  split.
  - intros f n. unfold reg2. destruct (f =? 1); simpl; split; auto; [intros a [<-|[]]; eauto|intros a []].
  - eexists. split; [reflexivity|]. split; [discriminate|]. eexists. split; [reflexivity|]. split; [reflexivity|]. eexists. split; [reflexivity|]. auto.
Qed.
(** a key press terminates if the callbacks register nothing *)
Lemma act_cbs : forall a s n k, nth_error (kbs s) n = Some k -> (forall f, a <> AReg f) -> exists k', nth_error (kbs (do_act s a)) n = Some k' /\ k_cbs k' = k_cbs k.
Proof.
  assert (U : forall s m n k g, nth_error (kbs s) n = Some k -> (forall x, k_cbs (g x) = k_cbs x) -> exists k', nth_error (kbs (upd_kbd s m g)) n = Some k' /\ k_cbs k' = k_cbs k).
  { intros s m n k g K H. unfold upd_kbd. destruct (nth_error (kbs s) m) as [x|] eqn:X; [|eauto]. cbn [kbs]. destruct (Nat.eq_dec m n) as [->|N].
    - rewrite nth_set_nth by (apply nth_error_Some; congruence). rewrite K in X. injection X as <-. eauto.
    - rewrite nth_set_other by auto. eauto. }
  assert (SK : forall s n k, nth_error (kbs s) n = Some k -> nth_error (kbs (set_kb s)) n = Some k).
  { intros s n k K. cbn [set_kb kbs]. rewrite nth_error_app1; auto. apply nth_error_Some. congruence. }
  assert (HK : forall s n k, nth_error (kbs s) n = Some k -> nth_error (kbs (holder s)) n = Some k) by (intros; unfold holder; destruct (cur s); auto).
  intros [f| | | |] s n k K N; cbn [do_act]; [now destruct (N f)| | | |].
  - unfold m_shutdown, kb_shutdown. destruct (cur s); eauto.
  - exists k. split; auto. unfold m_abort_now. cbn [later kbs]. auto.
  - exists k. auto.
  - unfold m_ignore. cbv zeta. destruct (cur (holder s)); eauto.
Qed.
Theorem C47_terminates : forall body n s k fuel, (forall f m g, ~ In (AReg g) (fst (body f m))) -> nth_error (kbs s) n = Some k -> length (k_cbs k) < fuel ->
  exists s', ab_step body fuel s (VKey n) = Some s'.
Proof.
  intros body n s k fuel NR K L. cbn [ab_step]. unfold data_received. rewrite K. destruct (k_ignore k); eauto.
  assert (D : exists t r, drain body fuel n s = Some (t, r)).
  { revert s k K L. induction fuel as [|fuel IH]; intros s k K L; [lia|]. cbn [drain]. rewrite K. destruct (k_cbs k) as [|f l] eqn:C; [eauto|].
    unfold run_cb. cbn [ran]. assert (KK : nth_error (kbs (upd_kbd s n (fun k => mkKbd (k_open k) (k_ignore k) l))) n = Some (mkKbd (k_open k) (k_ignore k) l)).
    { unfold upd_kbd. rewrite K. cbn [kbs]. apply nth_set_nth. apply nth_error_Some. congruence. }
    set (t := upd_kbd s n _) in *. clearbody t. specialize (NR f (length (ran t))). destruct (body f (length (ran t))) as [acts raises]. cbn [fst] in NR. destruct raises; [eauto|].
    assert (A : forall acts u k, (forall g, ~ In (AReg g) acts) -> nth_error (kbs u) n = Some k -> exists k', nth_error (kbs (fold_left do_act acts u)) n = Some k' /\ k_cbs k' = k_cbs k).
    { clear. induction acts as [|a acts IH]; intros u k N K; [eauto|]. cbn [fold_left]. destruct (act_cbs a u n k K) as (k1 & K1 & E1); [intros f ->; apply (N f); simpl; auto|].
      destruct (IH (do_act u a) k1) as (k2 & K2 & E2); auto; [intros g I; apply (N g); simpl; auto|]. exists k2. split; auto. congruence. }
    match goal with |- context [fold_left do_act acts ?u] => destruct (A acts u _ NR KK) as (k' & K' & E') end. eapply IH; [exact K'|]. rewrite E'. cbn [k_cbs]. simpl in L. lia. }
  destruct D as (t & [] & ->); eauto.
Qed.
Print Assumptions C47_terminates.
(** a callback that registers itself: the key press never ends *)
Theorem C47_self_refuted : forall body f fuel, (forall n, body f n = ([AReg f], false)) ->
  ab_exec body fuel ab_init [VCall (AReg f); VKey 0] = None.
Proof.
  intros body f fuel B. cbn [ab_exec ab_step do_act call_on_abort]. unfold data_received. cbn [holder ab_init cur set_kb note_reg kbs length app nth_error new_kbd k_open].
  unfold add_cb, upd_kbd. cbn [note_reg set_kb ab_init kbs nth_error length app]. unfold set_nth. cbn [nth_error firstn skipn app kbs k_ignore new_kbd k_open k_cbs].
  assert (D : forall fuel s, kbs s = [mkKbd true false [f]] -> cur s = Some 0 -> drain body fuel 0 s = None).
  { clear fuel. induction fuel as [|fuel IH]; intros s K C; auto. cbn [drain]. rewrite K. cbn [nth_error k_cbs]. unfold upd_kbd. rewrite K. cbn [nth_error k_open k_ignore]. unfold set_nth. cbn [nth_error firstn skipn app].
    unfold run_cb. rewrite B. cbn [fold_left do_act]. apply IH; unfold call_on_abort, holder; cbn [cur kbs note_reg]; rewrite C; reflexivity. }
  rewrite D; reflexivity.
Qed.
Print Assumptions C47_self_refuted.
(** shutting down again changes nothing, and shutting down loses nothing *)
Theorem C47_shutdown : forall s, do_act (do_act s AShutdown) AShutdown = do_act s AShutdown /\
  ran (do_act s AShutdown) = ran s /\ pend (do_act s AShutdown) = pend s /\ map k_cbs (kbs (do_act s AShutdown)) = map k_cbs (kbs s).
Proof.
  intros s. cbn [do_act]. unfold m_shutdown. destruct (cur s) as [n|] eqn:C; [|rewrite C; auto]. unfold kb_shutdown, upd_kbd. destruct (nth_error (kbs s) n) as [k|] eqn:K; [|rewrite C, K; auto].
  cbn [cur kbs ran pend]. rewrite C. rewrite nth_set_nth by (apply nth_error_Some; congruence). cbn [k_ignore k_cbs].
  destruct (set_nth_split _ _ _ _ (mkKbd false (k_ignore k) (k_cbs k)) K) as (a & b & A & L & S). repeat split; auto.
  - f_equal. rewrite S. unfold set_nth. rewrite nth_error_app2 by lia. rewrite <- L, Nat.sub_diag. cbn [nth_error]. rewrite firstn_app, firstn_all, Nat.sub_diag. cbn [firstn]. rewrite app_nil_r. f_equal. f_equal.
    rewrite skipn_app, skipn_all2 by lia. replace (Datatypes.S (length a) - length a) with 1 by lia. reflexivity.
  - rewrite S, A. now rewrite !map_app.
Qed.
Print Assumptions C47_shutdown.
(** but after shutdown() callbacks are out of order: those registered later
    run as delayed calls, those registered before only with abortNow() *)
Theorem C47_shutdown_order_refuted : forall body, (forall f n, body f n = ([], false)) -> forall f g,
  (exists s, ab_exec body 2 ab_init [VCall (AReg f); VCall AShutdown; VCall (AReg g); VTick; VTick] = Some s /\ ran s = [g]) /\
  exists s, ab_exec body 2 ab_init [VCall (AReg f); VCall AShutdown; VCall (AReg g); VTick; VCall AAbortNow; VTick] = Some s /\ ran s = [g; f].
Proof.
  intros body B f g. split; eexists; cbn; unfold run_cb; rewrite !B; cbn; unfold run_cb; rewrite ?B; cbn; split; reflexivity.
Qed.
Print Assumptions C47_shutdown_order_refuted.
(** a callback that raises ends the key press: the callbacks after it have not
    run, they wait for another key press; the keyboard is not shut down *)
Theorem C47_error_refuted : forall body fuel s n k pre f post, nth_error (kbs s) n = Some k -> k_ignore k = false -> k_cbs k = pre ++ f :: post ->
  (forall g m, In g pre -> body g m = ([], false)) -> (forall m, body f m = ([], true)) -> length pre < fuel ->
  exists s', ab_step body fuel s (VKey n) = Some s' /\ ran s' = ran s ++ pre ++ [f] /\ nth_error (kbs s') n = Some (mkKbd (k_open k) false post).
Proof.
  intros body fuel s n k pre f post K I C Bp Bf L. cbn [ab_step]. unfold data_received. rewrite K, I.
  assert (D : exists s', drain body fuel n s = Some (s', true) /\ ran s' = ran s ++ pre ++ [f] /\ nth_error (kbs s') n = Some (mkKbd (k_open k) false post)).
  { revert fuel s k K I C L. induction pre as [|g pre IH]; intros fuel s k K I C L; (destruct fuel as [|fuel]; [simpl in L; lia|]); cbn [drain app] in *; rewrite K, C.
    - unfold run_cb. rewrite Bf. cbn [fold_left]. eexists. split; [reflexivity|]. cbn [ran kbs]. unfold upd_kbd. rewrite K. cbn [ran kbs]. split; auto. rewrite nth_set_nth by (apply nth_error_Some; congruence). now rewrite I.
    - unfold run_cb. rewrite Bp by (simpl; auto). cbn [fold_left]. match goal with |- context [drain body fuel n ?t] => set (t' := t) end.
      destruct (IH ltac:(intros; apply Bp; simpl; auto) fuel t' (mkKbd (k_open k) (k_ignore k) (pre ++ f :: post))) as (s' & D1 & D2 & D3).
      + subst t'. cbn [kbs]. unfold upd_kbd. rewrite K. cbn [kbs]. apply nth_set_nth. apply nth_error_Some. congruence.
      + exact I.
      + reflexivity.
      + simpl in L. lia.
      + exists s'. split; auto. split; auto. rewrite D2. subst t'. cbn [ran]. unfold upd_kbd. rewrite K. cbn [ran]. now rewrite <- app_assoc. }
  destruct D as (s' & -> & D2 & D3). eauto.
Qed.
Print Assumptions C47_error_refuted.
Example C47_error_ex : let body f (_ : nat) := ([], f =? 2) in
  exists s, ab_exec body 9 ab_init [VCall (AReg 1); VCall (AReg 2); VCall (AReg 3)] = Some s /\
  nth_error (kbs s) 0 = Some (mkKbd true false ([1] ++ 2 :: [3])).
Proof. eexists. split; reflexivity. Qed.
(** restart() forgets what was registered: abortNow() does not run it *)
Theorem C47_restart_refuted : forall body f, exists s,
  ab_exec body 2 ab_init [VCall (AReg f); VCall ARestart; VCall AAbortNow; VTick] = Some s /\ ran s = [].
Proof. intros body f. eexists. split; reflexivity. Qed.
Print Assumptions C47_restart_refuted.
(** after ignoreKeyboard() and as long as there is no restart or shutdown, no
    callback is ever run: not by a key press, and not by abortNow() either *)
Definition quiet_ev (e : aev) : Prop := match e with VCall ARestart | VCall AShutdown | VStop => False | _ => True end.
Theorem C47_ignored : forall body fuel es s, Forall quiet_ev es -> ab_exec body fuel ab_init (VCall AIgnore :: es) = Some s -> ran s = [].
Proof.
  intros body fuel es s F E. cbn [ab_exec ab_step] in E.
  set (Inv := fun s => cur s = Some 0 /\ ran s = [] /\ funcs (pend s) = [] /\ exists k, kbs s = [k] /\ k_open k = true /\ k_ignore k = true).
  assert (I0 : Inv (do_act ab_init AIgnore)). { split; [reflexivity|]. split; [reflexivity|]. split; [reflexivity|]. eexists. split; [reflexivity|]. auto. }
  enough (X : forall es s t, Inv s -> Forall quiet_ev es -> ab_exec body fuel s es = Some t -> Inv t) by (destruct (X _ _ _ I0 F E) as (_ & R & _); exact R).
  clear. induction es as [|e es IH]; intros s t I F E; cbn [ab_exec] in E; [injection E as <-; auto|]. inversion F; subst.
  destruct (ab_step body fuel s e) as [u|] eqn:D; [|discriminate]. refine (IH u t _ H2 E). clear IH E. destruct I as (C & R & P & k & K & O & G).
  assert (HS : holder s = s) by (unfold holder; now rewrite C).
  destruct e as [[f| | | |]|n| |]; cbn [quiet_ev] in H1; try contradiction; cbn [ab_step do_act] in D.
  - injection D as <-. unfold call_on_abort. rewrite HS. cbn [note_reg cur kbs]. rewrite C, K. cbn [nth_error]. rewrite O. unfold add_cb, upd_kbd. cbn [note_reg kbs]. rewrite K. cbn.
    split; auto. split; auto. split; auto. eexists. split; [reflexivity|]. auto.
  - injection D as <-. unfold m_abort_now. rewrite HS. split; auto. split; auto. split; [cbn [later pend]; rewrite funcs_app, P; reflexivity|]. exists k. auto.
  - injection D as <-. unfold m_ignore. rewrite HS, C. unfold upd_kbd. rewrite K. cbn. split; auto. split; auto. split; auto. eexists. split; [reflexivity|]. auto.
  - unfold data_received in D. rewrite K in D. destruct n as [|n]; [cbn [nth_error] in D; rewrite G in D|destruct n; cbn [nth_error] in D]; injection D as <-; (split; [auto|split; [auto|split; [auto|exists k; auto]]]).
  - assert (X : forall l s u, funcs l = [] -> cur s = Some 0 -> kbs s = [k] -> run_delayed body fuel l s = Some u -> u = s).
    { clear - G. induction l as [|[f|] l IH]; intros s u FL C K E; cbn [run_delayed] in E; [congruence|discriminate|]. rewrite C in E. unfold data_received in E. rewrite K in E. cbn [nth_error] in E. rewrite G in E. apply IH in E; auto. }
    apply X in D; auto. subst u. split; auto. split; auto. split; auto. exists k. auto.
Qed.
Print Assumptions C47_ignored.
Example C47_ignored_ex : exists s, ab_exec reg2 9 ab_init [VCall AIgnore; VCall (AReg 1); VKey 0; VCall AAbortNow; VTick] = Some s /\ regd s = [1].
Proof. eexists. split; reflexivity. Qed.
