(** * C114: fitting in several goes, with saving and loading in between *)
From Coq Require Import String List Bool Arith ZArith Lia Reals Lra.
From Verif Require Import Flt Py IndivModel IndivProofs ParamModel ParamProofs ParamProps FManModel RunModel ChalModel ChalProofs ChalInst ChalProps LoopModel LoopProofs LoopProps CompModel CompProps
  HistModel HistProofs LoadModel LoadProps EndProps RunRepProps CampModel ChalLive.
Import ListNotations.
Local Open Scope nat_scope.

(** nobody complains about an individual in any of the runs *)
Definition no_complaints (ops : list cop) : Prop := forall s k, In (KRun s) ops -> ~ In (CBlack k) (q_events s).
(** no reload changes the bounds *)
Definition same_bounds (ops : list cop) : Prop := forall f cb b, In (KReload f cb b) ops -> b = None \/ b = Some [].
Notation inds c := (p_iList (k_pop c)).

(** ** the steps *)
Lemma camp_app : forall l1 l2 c, camp_exec c (l1 ++ l2) = match camp_exec c l1 with Some c1 => camp_exec c1 l2 | None => None end.
Proof. induction l1 as [|o l1 IH]; simpl; intros; auto. destruct (camp_step c o); auto. Qed.
Lemma step_run : forall c s c', camp_step c (KRun s) = Some c' ->
  k_busy c = false /\ length (inds c) = p_Np (k_pop c) /\
  ((p_running (k_pop c) = Some false /\ c' = c) \/
   (p_running (k_pop c) <> Some false /\ exists x, sess_run (k_pop c) (k_score c) s (q_events s) = Some x /\
      c' = mkCamp (ran (k_pop c) x (q_hist s)) (r_score (lrs (fst x))) (negb (over x)))).
Proof.
  intros c s c' H. unfold camp_step in H. destruct (k_busy c); [discriminate|]. simpl orb in H.
  destruct (length (inds c) =? p_Np (k_pop c)) eqn:E; [|discriminate]. apply Nat.eqb_eq in E. simpl negb in H. cbv iota in H.
  destruct (p_func (k_pop c)); [|discriminate]. repeat split; auto.
  destruct (p_running (k_pop c)) as [[|]|].
  - right. split; [discriminate|]. destruct (sess_run _ _ _ _) as [x|]; [|discriminate]. exists x. split; congruence.
  - left. split; congruence.
  - right. split; [discriminate|]. destruct (sess_run _ _ _ _) as [x|]; [|discriminate]. exists x. split; congruence.
Qed.
Lemma limit_stored : forall p Nd l l', limit_all p Nd l = Ok l' -> Forall2 (fun i j => istored j = istored i) l l'.
Proof.
  intros p Nd l. induction l as [|i l IH]; intros l' H; cbn [limit_all] in H.
  - assert (l' = []) as -> by congruence. constructor.
  - destruct (limit_bc p (ivalues i)) as [v|]; [|discriminate]. cbn [bind] in H. unfold ind_update in H.
    destruct (length v =? Nd); [|discriminate]. destruct (limit_all p Nd l) as [r|]; [|discriminate]. cbn [bind] in H.
    assert (l' = mkIndiv v (istored i) (idt i) :: r) as -> by congruence. constructor; auto.
Qed.
Lemma step_load : forall c f cb b c', camp_step c (KReload f cb b) = Some c' ->
  p_Nd (k_pop c') = p_Nd (k_pop c) /\ p_Np (k_pop c') = p_Np (k_pop c) /\ p_constr (k_pop c') = p_constr (k_pop c) /\ p_func (k_pop c') = f /\
  p_running (k_pop c') <> Some false /\ rscore (k_score c') = None /\ k_busy c' = false /\
  match b with
  | None | Some [] => p_pm (k_pop c') = p_pm (k_pop c) /\ inds c' = inds c
  | Some b => p_pm (k_pop c') = pm_setup (p_pm (k_pop c)) b /\ limit_all (pm_setup (p_pm (k_pop c)) b) (p_Nd (k_pop c)) (inds c) = Ok (inds c')
  end.
Proof.
  intros c f cb b c' H. unfold camp_step, pop_load, pop_setstate, pop_getstate in H. cbn [s_hist s_running s_Nd s_Np s_popsize s_target s_sqs s_iList s_pm s_constr] in H.
  destruct (setstate (getstate (p_hist (k_pop c)))) as [h|]; [|discriminate].
  assert (R : match p_running (k_pop c) with Some false => Some true | r => r end <> Some false) by (destruct (p_running (k_pop c)) as [[|]|]; discriminate).
  cbn [bind p_Nd p_pm p_iList p_running p_Np p_popsize p_target p_sqs p_constr p_hist p_counter p_score p_locks p_onAbort] in H.
  destruct b as [[|b0 b]|].
  - cbn [bind fst snd p_sqs] in H. injection H as <-. cbn. repeat split; auto.
  - destruct (limit_all _ _ _) as [l'|] eqn:E; [|discriminate]. cbn [bind fst snd p_sqs] in H. injection H as <-. cbn. repeat split; auto.
  - cbn [bind fst snd p_sqs] in H. injection H as <-. cbn. repeat split; auto.
Qed.
Lemma load_stored : forall c f cb b c', camp_step c (KReload f cb b) = Some c' -> Forall2 (fun i j => istored j = istored i) (inds c) (inds c').
Proof.
  intros c f cb b c' H. destruct (step_load _ _ _ _ _ H) as (_ & _ & _ & _ & _ & _ & _ & M).
  assert (S : Forall2 (fun i j => istored j = istored i) (inds c) (inds c)) by (clear; generalize (inds c) as l; intros l; induction l; auto).
  destruct b as [[|b0 b]|]; try (destruct M as [_ ->]; exact S). destruct M as [_ M]. exact (limit_stored _ _ _ _ M).
Qed.

(** ** one session *)
Section Session.
Variables (p : popn) (sc : score) (s : sess).
Notation l := (p_iList p).
Lemma sess_len : forall es x, sess_run p sc s es = Some x -> length (members_of x) = length l.
Proof.
  intros es x H. unfold members_of. rewrite map_length. unfold sess_run in H.
  destruct (C110_simulates _ _ _ _ _ _ _ _ _ _ _ _ _ _ _ _ _ _ _ _ H) as [V HV].
  rewrite <- (objects_length l). destruct (run_inv _ _ _ _ _ _ _ _ _ _ _ _ _ _ HV) as [R _ _]. eapply reach_len. exact R.
Qed.
Lemma black_from : forall es x k, sess_run p sc s es = Some x -> In k (snd x) -> In (CBlack k) es.
Proof.
  induction es as [|e es IH] using rev_ind; intros x k H Hk; unfold sess_run in H.
  - simpl in H. assert (x = cstart (q_o s) l (q_fm s) sc) as -> by congruence. destruct Hk.
  - rewrite cexec_app in H. destruct (cexec _ _ _ _ _ _ _ _ _ _ _ _ _ _ _ _ _ es) as [x1|] eqn:E1; [|discriminate]. cbn [CompModel.cexec] in H.
    destruct (CompModel.cstep _ _ _ _ _ _ _ _ _ _ _ _ _ _ _ _ x1 e) as [x2|] eqn:E2; [|discriminate]. assert (x2 = x) as -> by congruence.
    apply in_or_app. destruct e as [e|k']; unfold CompModel.cstep in E2.
    + destruct (lstep _ _ _ _ _ _ _ _ _ _ _); [|discriminate]. assert (snd x = snd x1) as S by (injection E2 as <-; reflexivity).
      left. apply (IH x1 k); auto. congruence.
    + destruct (_ || _); [|discriminate]. assert (snd x = k' :: snd x1) as S by (injection E2 as <-; reflexivity).
      rewrite S in Hk. destruct Hk as [->|Hk]; [right; now left|]. left. exact (IH x1 k E1 Hk).
Qed.
Lemma black_none : forall es x, sess_run p sc s es = Some x -> (forall k, ~ In (CBlack k) es) -> snd x = [].
Proof.
  intros es x H N. destruct (snd x) as [|k B] eqn:E; auto. exfalso. apply (N k). apply (black_from es x k H). rewrite E. now left.
Qed.
Lemma objects_at : forall k i, nth_error l k = Some i -> nth_error (objects l) k = Some (mkObj k i).
Proof.
  intros k i. unfold objects. rewrite nth_error_map.
  assert (C : forall k m (l : list indiv), nth_error (combine (seq m (length l)) l) k = match nth_error l k with Some i => Some (m + k, i) | None => None end).
  { induction k0 as [|k0 IH]; intros m [|a l0]; simpl; auto; [now rewrite Nat.add_0_r|]. rewrite (IH (S m) l0). destruct (nth_error l0 k0); auto. do 2 f_equal. lia. }
  rewrite C. intros ->. reflexivity.
Qed.
Lemma Forall2_at : forall {A B} (R : A -> B -> Prop) (l1 : list A) (l2 : list B), length l2 = length l1 ->
  (forall k a, nth_error l1 k = Some a -> exists b, nth_error l2 k = Some b /\ R a b) -> Forall2 R l1 l2.
Proof.
  intros A B R l1. induction l1 as [|a l1 IH]; intros [|b l2] L H; simpl in L; try lia; constructor.
  - destruct (H 0 a eq_refl) as (b' & E & X). simpl in E. congruence.
  - apply IH; [lia|]. intros k a' E. exact (H (S k) a' E).
Qed.
Lemma sess_slots : forall es x, sess_run p sc s es = Some x -> (forall k, ~ In (CBlack k) es) -> (forall i, In i l -> isnan (ind_SSE i) = false) ->
  Forall2 (fun i i' => fleb (ind_SSE i') (ind_SSE i) = true) l (members_of x) /\ (forall i, In i (members_of x) -> isnan (ind_SSE i) = false).
Proof.
  intros es x H NB NN. assert (B := black_none es x H NB). assert (L := sess_len es x H). unfold members_of in *. rewrite B in *. split.
  - apply Forall2_at; auto. intros k i Hk.
    assert (M : nth_error (pop (lch (fst (cstart (q_o s) l (q_fm s) sc)))) k = Some (mkObj k i)).
    { unfold cstart. cbn [fst]. rewrite lch_start. cbn [init pop]. now apply objects_at. }
    destruct (C110_slot _ _ _ _ _ _ _ _ _ _ _ _ _ _ _ _ _ _ [] es _ x k _ eq_refl H M) as (_ & _ & y & z & _ & _ & _ & Z & [Z'|Z']); [rewrite B in Z'; destruct Z'|].
    exists (oind z). split; [rewrite nth_error_map, Z'; reflexivity|]. destruct Z as [->|Z].
    + apply fleb_refl. apply NN. eapply nth_error_In; eauto.
    + unfold ind_lt in Z. rewrite !float_SSE in Z. now apply fltb_fleb.
  - intros i Hi. apply in_map_iff in Hi. destruct Hi as (a & <- & Ha). change (look [] a) with (oind a).
    apply (noNaN_exec _ _ _ _ _ _ _ _ _ _ _ _ _ _ _ _ _ _ [] es _ x eq_refl H); auto. now apply first_noNaN.
Qed.
(** where the members come from *)
Lemma sess_true : forall g es x i, honest_func g (q_func s) -> sess_run p sc s es = Some x -> In i (members_of x) ->
  (exists i0, In i0 l /\ ivalues i = ivalues i0 /\ (istored i = istored i0 \/ istored i = Some finf /\ exists k, In (CBlack k) es)) \/
  (istored i = g (ivalues i) \/ istored i = Some finf /\ exists k, In (CBlack k) es).
Proof.
  intros g es x i Hg H Hi. unfold members_of in Hi. apply in_map_iff in Hi. destruct Hi as (a & <- & Ha).
  assert (LK : look (snd x) a = oind a \/ look (snd x) a = ind_blacklist (oind a) /\ exists k, In (CBlack k) es).
  { destruct (in_dec Nat.eq_dec (oid a) (snd x)) as [I|I].
    - right. split; [now apply look_in|]. exists (oid a). exact (black_from es x _ H I).
    - left. now apply look_out. }
  destruct (C111_origin _ _ _ _ _ _ _ _ _ _ _ _ _ _ _ _ _ _ es x a H Ha) as [(i & E & <-)|(es1 & es2 & x1 & c & q & it & ch & _ & H1 & Hc & Hr & Hb)].
  - left. exists (oind a). split; [eapply nth_error_In; eauto|]. destruct LK as [->|[-> K]]; auto.
  - right. destruct (ev_honest _ _ _ _ g c it ch a Hg Hr) as [_ [E|E]].
    + destruct LK as [->|[-> K]]; auto.
    + exfalso. unfold better_now in Hb.
      rewrite (look_out _ a (fresh _ _ _ _ _ _ _ _ _ _ _ _ _ _ _ _ _ _ _ _ _ _ _ _ _ H1 Hc Hr)) in Hb. rewrite no_SSE_loses in Hb; [discriminate|exact E].
Qed.
End Session.

(** ** the theorems *)
(** *** C114: sizes and constraints stay as they were *)
Theorem C114_sizes : forall ops c c', camp_exec c ops = Some c' ->
  p_Np (k_pop c') = p_Np (k_pop c) /\ p_Nd (k_pop c') = p_Nd (k_pop c) /\ length (inds c') = length (inds c) /\ p_constr (k_pop c') = p_constr (k_pop c).
Proof.
  induction ops as [|o ops IH]; intros c c' H; cbn [camp_exec] in H; [injection H as <-; auto|].
  destruct (camp_step c o) as [c1|] eqn:E; [|discriminate]. destruct (IH c1 c' H) as (A1 & A2 & A3 & A4).
  enough (p_Np (k_pop c1) = p_Np (k_pop c) /\ p_Nd (k_pop c1) = p_Nd (k_pop c) /\ length (inds c1) = length (inds c) /\ p_constr (k_pop c1) = p_constr (k_pop c))
    as (B1 & B2 & B3 & B4) by (repeat split; congruence).
  destruct o as [s|f cb b].
  - destruct (step_run _ _ _ E) as (_ & _ & [[_ ->]|(_ & x & Hx & ->)]); auto. cbn. repeat split; auto. eapply sess_len; eauto.
  - assert (S := load_stored _ _ _ _ _ E). destruct (step_load _ _ _ _ _ E) as (B1 & B2 & B3 & _). repeat split; auto.
    symmetry. clear - S. induction S; simpl; congruence.
Qed.
Print Assumptions C114_sizes.

(** *** C114: no slot gets worse, whatever runs, saves and loads, new bounds included *)
Lemma slots_step : forall o c c', camp_step c o = Some c' -> no_complaints [o] -> (forall i, In i (inds c) -> isnan (ind_SSE i) = false) ->
  Forall2 (fun i i' => fleb (ind_SSE i') (ind_SSE i) = true) (inds c) (inds c') /\ (forall i, In i (inds c') -> isnan (ind_SSE i) = false).
Proof.
  intros o c c' H NC NN.
  assert (S : Forall2 (fun i i' => fleb (ind_SSE i') (ind_SSE i) = true) (inds c) (inds c)).
  { apply Forall2_at; auto. intros k i Hk. exists i. split; auto. apply fleb_refl. apply NN. eapply nth_error_In; eauto. }
  destruct o as [s|f cb b].
  - destruct (step_run _ _ _ H) as (_ & _ & [[_ ->]|(_ & x & Hx & ->)]); auto. cbn [k_pop ran p_iList].
    apply (sess_slots (k_pop c) (k_score c) s (q_events s)); auto. intros k. apply NC. now left.
  - assert (F := load_stored _ _ _ _ _ H). clear - F NN. induction F as [|i i' l l' E F IH]; [split; [constructor|intros ? []]|].
    destruct IH as [A B]; [intros; apply NN; now right|].
    assert (X : ind_SSE i' = ind_SSE i) by (unfold ind_SSE; now rewrite E). assert (Ni : isnan (ind_SSE i) = false) by (apply NN; now left). split.
    + constructor; auto. rewrite X. now apply fleb_refl.
    + intros a [<-|Ha]; auto. congruence.
Qed.
Lemma Forall2_fleb_trans : forall l1 l2 l3, Forall2 (fun i i' => fleb (ind_SSE i') (ind_SSE i) = true) l1 l2 ->
  Forall2 (fun i i' => fleb (ind_SSE i') (ind_SSE i) = true) l2 l3 -> Forall2 (fun i i' => fleb (ind_SSE i') (ind_SSE i) = true) l1 l3.
Proof.
  intros l1 l2 l3 A. revert l3. induction A as [|i j l1 l2 E A IH]; intros l3 B; inversion B; subst; constructor; auto.
  eapply fleb_trans; eauto.
Qed.
Lemma slots_exec : forall ops c c', camp_exec c ops = Some c' -> no_complaints ops -> (forall i, In i (inds c) -> isnan (ind_SSE i) = false) ->
  Forall2 (fun i i' => fleb (ind_SSE i') (ind_SSE i) = true) (inds c) (inds c') /\ (forall i, In i (inds c') -> isnan (ind_SSE i) = false).
Proof.
  induction ops as [|o ops IH]; intros c c' H NC NN; cbn [camp_exec] in H.
  - injection H as <-. split; auto. apply Forall2_at; auto. intros k i Hk. exists i. split; auto. apply fleb_refl. apply NN. eapply nth_error_In; eauto.
  - destruct (camp_step c o) as [c1|] eqn:E; [|discriminate].
    destruct (slots_step o c c1 E) as [A B]; auto. { intros s k [->|[]]. apply NC. now left. }
    destruct (IH c1 c' H) as [A' B']; auto. { intros s k Hs. apply NC. now right. }
    split; auto. eapply Forall2_fleb_trans; eauto.
Qed.
Theorem C114_slots : forall ops c c', camp_exec c ops = Some c' -> no_complaints ops -> (forall i, In i (inds c) -> isnan (ind_SSE i) = false) ->
  Forall2 (fun i i' => fleb (ind_SSE i') (ind_SSE i) = true) (inds c) (inds c').
Proof. intros ops c c' H NC NN. exact (proj1 (slots_exec ops c c' H NC NN)). Qed.
Print Assumptions C114_slots.

(** *** C114: one member is at least as good as every first one and as everything
    that has been evaluated in any of the runs while it was on *)
Lemma best_ind : forall L : list indiv, L <> [] -> (forall i, In i L -> isnan (ind_SSE i) = false) ->
  exists z, In z L /\ forall i, In i L -> fleb (ind_SSE z) (ind_SSE i) = true.
Proof.
  intros L H N. destruct (best_exists (map (mkObj 0) L)) as (z & Z1 & Z2).
  - destruct L; [congruence|discriminate].
  - intros a Ha. apply in_map_iff in Ha. destruct Ha as (i & <- & Hi). now apply N.
  - apply in_map_iff in Z1. destruct Z1 as (i & <- & Hi). exists i. split; auto. intros i' Hi'. apply (Z2 (mkObj 0 i')). now apply in_map.
Qed.
Lemma Forall2_in_l : forall (l1 l2 : list indiv) R i, Forall2 R l1 l2 -> In i l1 -> exists i', In i' l2 /\ R i i'.
Proof.
  intros l1 l2 R i F. induction F as [|a b l1 l2 E F IH]; intros []; [subst; exists b; split; [now left|auto]|].
  destruct IH as (i' & A & B); auto. exists i'. split; [now right|auto].
Qed.
Theorem C114_best : forall ops c c', camp_exec c ops = Some c' -> no_complaints ops -> inds c <> [] -> (forall i, In i (inds c) -> isnan (ind_SSE i) = false) ->
  exists z, In z (inds c') /\ (forall i, In i (inds c) -> fleb (ind_SSE z) (ind_SSE i) = true) /\
    forall ops1 s ops2 c1 es1 k es2 x q it ch r,
      ops = ops1 ++ KRun s :: ops2 -> camp_exec c ops1 = Some c1 -> p_running (k_pop c1) <> Some false ->
      q_events s = es1 ++ CL (LC (EEvalDone k)) :: es2 -> sess_run (k_pop c1) (k_score c1) s es1 = Some x ->
      nth_error (cs (lch (fst x))) k = Some (mkChal q (PEval it ch)) -> ChalModel.run (lch (fst x)) = true ->
      ev_obj (q_func s) (q_t s) (q_PS s) (length (inds c1)) k it ch = Some r -> isnan (ind_SSE (oind r)) = false ->
      fleb (ind_SSE z) (ind_SSE (oind r)) = true.
Proof.
  intros ops c c' H NC Ne NN. destruct (slots_exec ops c c' H NC NN) as [F N'].
  destruct (best_ind (inds c')) as (z & Z1 & Z2); auto. { intros E. rewrite E in F. inversion F. congruence. }
  exists z. split; auto. split.
  - intros i Hi. destruct (Forall2_in_l _ _ _ _ F Hi) as (i' & A & B). eapply fleb_trans; [exact (Z2 i' A)|exact B].
  - intros ops1 s ops2 c1 es1 k es2 x q it ch r -> H1 Run Es Hx Hc Hr Ev Nr.
    rewrite camp_app, H1 in H. cbn [camp_exec] in H. destruct (camp_step c1 (KRun s)) as [c2|] eqn:E; [|discriminate].
    assert (NC1 : no_complaints ops1) by (intros s' k' Hs; apply NC; apply in_or_app; now left).
    assert (NC2 : no_complaints ops2) by (intros s' k' Hs; apply NC; apply in_or_app; right; now right).
    assert (NCs : forall k', ~ In (CBlack k') (q_events s)) by (intros k'; apply NC; apply in_or_app; right; now left).
    destruct (slots_exec ops1 c c1 H1 NC1 NN) as [F1 N1].
    destruct (slots_step (KRun s) c1 c2 E) as [F2 N2]; auto. { intros s' k' [[= <-]|[]]. apply NCs. }
    destruct (slots_exec ops2 c2 c' H NC2 N2) as [F3 N3].
    destruct (step_run _ _ _ E) as (_ & _ & [[C _]|(_ & y & Hy & ->)]); [congruence|]. cbn [k_pop ran p_iList] in *.
    assert (L1 : inds c1 <> []). { intros C. rewrite C in F1. inversion F1. congruence. }
    destruct (C111_best _ _ _ _ _ _ _ _ _ _ _ _ _ _ _ _ _ _ L1 N1 (q_events s) y Hy NCs) as (w & W1 & W2 & _ & W3).
    assert (W := W3 es1 es2 x k q it ch r Es Hx Hc Hr Ev Nr).
    assert (I : In (oind w) (members_of y)). { unfold members_of. rewrite <- W2. now apply in_map. }
    destruct (Forall2_in_l _ _ _ _ F3 I) as (w' & A & B). eapply fleb_trans; [exact (Z2 w' A)|]. eapply fleb_trans; [exact B|exact W].
Qed.
Print Assumptions C114_best.

(** *** C114: with the same function throughout and no new bounds, every SSE is what
    the function gives for the values, or infinity after a complaint *)
Theorem C114_true_SSE : forall g ops c c', camp_exec c ops = Some c' -> same_bounds ops -> (forall s, In (KRun s) ops -> honest_func g (q_func s)) ->
  (forall i, In i (inds c) -> istored i = g (ivalues i)) ->
  forall i, In i (inds c') -> istored i = g (ivalues i) \/ (istored i = Some finf /\ exists s k, In (KRun s) ops /\ In (CBlack k) (q_events s)).
Proof.
  intros g ops c c' H SB HF H0.
  enough (X : forall ops c c' (Q : Prop), camp_exec c ops = Some c' -> same_bounds ops -> (forall s, In (KRun s) ops -> honest_func g (q_func s)) ->
    (forall s k, In (KRun s) ops -> In (CBlack k) (q_events s) -> Q) ->
    (forall i, In i (inds c) -> istored i = g (ivalues i) \/ istored i = Some finf /\ Q) ->
    forall i, In i (inds c') -> istored i = g (ivalues i) \/ istored i = Some finf /\ Q).
  { apply (X ops c c' (exists s k, In (KRun s) ops /\ In (CBlack k) (q_events s)) H SB HF); [eauto|auto]. }
  clear. induction ops as [|o ops IH]; intros c c' Q H SB HF HQ H0 i Hi; cbn [camp_exec] in H; [injection H as <-; auto|].
  destruct (camp_step c o) as [c1|] eqn:E; [|discriminate].
  apply (IH c1 c' Q H); auto.
  { intros f cb b Hb. apply (SB f cb b). now right. } { intros s Hs. apply HF. now right. } { intros s k Hs. apply HQ. now right. }
  clear i Hi. intros i Hi. destruct o as [s|f cb b].
  - destruct (step_run _ _ _ E) as (_ & _ & [[_ ->]|(_ & x & Hx & ->)]); auto. cbn [k_pop ran p_iList] in Hi.
    destruct (sess_true _ _ _ g _ _ _ (HF s (or_introl eq_refl)) Hx Hi) as [(i0 & I & V & [S|[S [k K]]])|[S|[S [k K]]]]; auto.
    + destruct (H0 i0 I) as [A|A]; rewrite S; [left; congruence|auto].
    + right. split; auto. apply (HQ s k); auto. now left.
    + right. split; auto. apply (HQ s k); auto. now left.
  - destruct (step_load _ _ _ _ _ E) as (_ & _ & _ & _ & _ & _ & _ & M).
    destruct (SB f cb b (or_introl eq_refl)) as [-> | ->]; destruct M as [_ M]; rewrite M in Hi; auto.
Qed.
Print Assumptions C114_true_SSE.

(** *** C114: members are within the bounds of the time, whatever bounds are given in
    loading, if one is given for each parameter *)
Theorem C114_in_bounds : forall ops c c', camp_exec c ops = Some c' -> okpm (p_pm (k_pop c)) -> length (pm_mins (p_pm (k_pop c))) = p_Nd (k_pop c) ->
  (forall s k, In (KRun s) ops -> isfin (q_F s k) = true) ->
  (forall f cb b, In (KReload f cb (Some b)) ops -> b = [] \/ (length b = p_Nd (k_pop c) /\ ok_bounds b)) ->
  (forall i, In i (inds c) -> inbounds (p_pm (k_pop c)) (ivalues i)) ->
  forall i, In i (inds c') -> inbounds (p_pm (k_pop c')) (ivalues i).
Proof.
  induction ops as [|o ops IH]; intros c c' H Hp HN HF HB H0; cbn [camp_exec] in H; [injection H as <-; auto|].
  destruct (camp_step c o) as [c1|] eqn:E; [|discriminate].
  assert (D : p_Nd (k_pop c1) = p_Nd (k_pop c)).
  { apply (C114_sizes [o] c c1). cbn [camp_exec]. now rewrite E. }
  enough (X : okpm (p_pm (k_pop c1)) /\ length (pm_mins (p_pm (k_pop c1))) = p_Nd (k_pop c1) /\ forall i, In i (inds c1) -> inbounds (p_pm (k_pop c1)) (ivalues i)).
  { destruct X as (X1 & X2 & X3). apply (IH c1 c' H X1 X2); auto.
    - intros s k Hs. apply HF. now right.
    - rewrite D. intros f cb b Hb. apply (HB f cb b). now right. }
  destruct o as [s|f cb b].
  - destruct (step_run _ _ _ E) as (_ & _ & [[_ ->]|(_ & x & Hx & ->)]); auto. cbn [k_pop ran p_iList p_pm p_Nd]. split; auto. split; auto.
    intros i Hi. unfold members_of in Hi. apply in_map_iff in Hi. destruct Hi as (a & <- & Ha).
    destruct (C110_in_bounds _ _ _ _ _ _ _ _ _ _ _ _ _ _ _ _ _ _ Hp (fun k => HF s k (or_introl eq_refl)) H0 _ x a Hx Ha) as [A ->]. exact A.
  - destruct (step_load _ _ _ _ _ E) as (_ & _ & _ & _ & _ & _ & _ & M).
    destruct b as [[|b0 b]|]; try (destruct M as [-> ->]; rewrite D; auto). destruct M as [M1 M2].
    destruct (HB f cb (b0 :: b) (or_introl eq_refl)) as [C|[L O]]; [discriminate|].
    assert (Hq := ok_bounds_pm (p_pm (k_pop c)) _ O). rewrite M1.
    assert (L' : length (pm_mins (pm_setup (p_pm (k_pop c)) (b0 :: b))) = p_Nd (k_pop c)) by (cbn [pm_setup pm_mins]; now rewrite map_length).
    destruct (limit_all_ok (pm_setup (p_pm (k_pop c)) (b0 :: b)) (p_Nd (k_pop c)) (inds c) Hq L') as (l' & E' & F).
    { intros i Hi. destruct (H0 i Hi) as [A B]. split; [congruence|]. apply Forall_forall. intros v Hv. apply In_nth_error in Hv. destruct Hv as [k Hv].
      destruct (B k v Hv) as (lo & hi & _ & _ & C & _). apply fleb_spec in C. tauto. }
    rewrite M2 in E'. assert (l' = inds c1) as -> by congruence. split; auto. split; [congruence|].
    clear - F. induction F as [|i j l1 l2 A F IHF]; intros a Ha; destruct Ha; [subst; tauto|auto].
Qed.
Print Assumptions C114_in_bounds.

(** *** C114: a population that has been aborted is not run again; loaded from
    its file it is, and the first generation begins *)
Theorem C114_stopped : forall c s c', camp_step c (KRun s) = Some c' -> p_running (k_pop c) = Some false -> c' = c.
Proof. intros c s c' H R. destruct (step_run _ _ _ H) as (_ & _ & [[_ E]|[N _]]); auto. congruence. Qed.
(** a population is stopped exactly if it was or an abort came during the run; then
    all further runs leave it as it is *)
Lemma cexec_prun : forall p cons CR F j u func t PS hc xS si u0 u1 o n es x x',
  cexec p cons CR F j u func t PS hc xS si u0 u1 o n x es = Some x' -> (prun (lch (fst x')) = false <-> prun (lch (fst x)) = false \/ In (CL (LC EPopAbort)) es).
Proof.
  intros p cons CR F j u func t PS hc xS si u0 u1 o n. induction es as [|e es IH]; intros x x' H; cbn [CompModel.cexec] in H.
  - assert (x = x') as -> by congruence. cbn. tauto.
  - destruct (cstep p cons CR F j u func t PS hc xS si u0 u1 o n x e) as [x1|] eqn:E; [|discriminate]. rewrite (IH _ _ H). cbn [In]. destruct e as [e|k]; cbn [CompModel.cstep] in E.
    + match type of E with match ?y with _ => _ end = _ => destruct y as [s|] eqn:Es; [|discriminate] end. assert (x1 = (s, snd x)) as -> by congruence. cbn [fst].
      rewrite (lstep_prun _ _ _ _ _ _ _ _ _ _ _ _ Es). destruct e as [ev| | | | | | |]; try destruct ev; (split; [intros [A|A]; auto|intros [A|[A|A]]; auto; discriminate]).
    + destruct ((k <? n) || evaluated (lch (fst x)) (k - n)); [|discriminate]. assert (x1 = (fst x, k :: snd x)) as -> by congruence. cbn [fst].
      split; [intros [A|A]; auto|intros [A|[A|A]]; auto; discriminate].
Qed.
Theorem C114_aborted : forall c s c', camp_step c (KRun s) = Some c' ->
  (p_running (k_pop c') = Some false <-> p_running (k_pop c) = Some false \/ In (CL (LC EPopAbort)) (q_events s)).
Proof.
  intros c s c' H. destruct (step_run _ _ _ H) as (_ & _ & [[R E]|[N (x & Hx & E)]]); rewrite E.
  - tauto.
  - cbn [k_pop ran p_running]. unfold sess_run in Hx. assert (P := cexec_prun _ _ _ _ _ _ _ _ _ _ _ _ _ _ _ _ _ _ _ Hx).
    cbn [cstart fst] in P. assert (P0 : prun (lch (linit (q_o s) (objects (inds c)) (q_fm s) (k_score c))) = true) by (unfold linit, loop_head; destruct (0 <? o_maxiter (q_o s)); reflexivity).
    rewrite P0 in P. split.
    + intros A. right. assert (A' : prun (lch (fst x)) = false) by congruence. apply P in A'. destruct A' as [A'|A']; [discriminate|exact A'].
    + intros [A|A]; [contradiction|]. f_equal. apply P. now right.
Qed.
Theorem C114_stays_stopped : forall ss c c', camp_exec c (map KRun ss) = Some c' -> p_running (k_pop c) = Some false -> c' = c.
Proof.
  induction ss as [|s ss IH]; intros c c' H R; cbn [map camp_exec] in H; [congruence|].
  destruct (camp_step c (KRun s)) as [c1|] eqn:E; [|discriminate]. assert (c1 = c) as -> by (eapply C114_stopped; eauto). eapply IH; eauto.
Qed.
Theorem C114_loaded_runs : forall c f cb b c1 s, camp_step c (KReload (Some f) cb b) = Some c1 -> length (inds c) = p_Np (k_pop c) ->
  q_events s = [CL LGo] -> 1 <= o_maxiter (q_o s) ->
  exists x c2, sess_run (k_pop c1) (k_score c1) s [CL LGo] = Some x /\ lph (fst x) = LStart 0 0 /\ camp_step c1 (KRun s) = Some c2 /\ k_busy c2 = true /\ inds c2 = inds c1.
Proof.
  intros c f cb b c1 s H L Es Hm.
  assert (Z := C114_sizes [KReload (Some f) cb b] c c1). cbn [camp_exec] in Z. rewrite H in Z. destruct (Z eq_refl) as (Z1 & _ & Z3 & _).
  destruct (step_load _ _ _ _ _ H) as (_ & _ & _ & Fn & Rn & _ & Bn & _).
  assert (X : exists x, sess_run (k_pop c1) (k_score c1) s [CL LGo] = Some x /\ lph (fst x) = LStart 0 0 /\ members_of x = inds c1).
  { unfold sess_run, cstart, linit, loop_head. destruct (o_maxiter (q_o s)) as [|m]; [lia|]. cbn [CompModel.cexec CompModel.cstep LoopModel.lstep].
    cbn. eexists. split; [reflexivity|]. split; [reflexivity|]. unfold members_of. cbn. unfold objects. rewrite map_map.
    change (fun x : nat * indiv => look [] (mkObj (fst x) (snd x))) with (fun x : nat * indiv => snd x).
    clear. generalize 0, (inds c1). intros m0 l. revert m0. induction l as [|i l IH]; intros m0; cbn; auto. f_equal. apply IH. }
  destruct X as (x & X1 & X2 & X3). exists x. eexists. split; [exact X1|]. split; [exact X2|]. split.
  - unfold camp_step. rewrite Bn. replace (length (inds c1) =? p_Np (k_pop c1)) with true by (symmetry; apply Nat.eqb_eq; congruence).
    cbn [orb negb]. rewrite Fn, Es, X1. destruct (p_running (k_pop c1)) as [[|]|]; try reflexivity. congruence.
  - cbn. split; [unfold over; now rewrite X2|exact X3].
Qed.
Print Assumptions C114_stopped.
Print Assumptions C114_aborted.
Print Assumptions C114_stays_stopped.
Print Assumptions C114_loaded_runs.

(** *** C114: after loading, the first generation that ends its challenges always
    raises F: the population has no score yet *)
Lemma rirs_none : forall npsin rs sc, rscore sc = None -> rscore (rcalls npsin sc (map CRir rs)) = None.
Proof. intros npsin rs. induction rs as [|r rs IH]; intros sc H; simpl; auto. apply IH. rewrite H. exact H. Qed.
Lemma gen_down0 : forall npsin up0 up1 o kg g r r' l w, generation npsin up0 up1 o kg g r = (r', l, w) -> (kg = 0 -> rscore (r_score r) = None) ->
  forall b, ~ In (EDown 0 b) l.
Proof.
  intros npsin up0 up1 o kg g r r' l w H K b C.
  assert (CF : forall s l0 r1 l1 w1, call_func o kg g s l0 = (r1, l1, w1) -> In (EDown 0 b) l1 -> In (EDown 0 b) l0).
  { intros s l0 r1 l1 w1 E I. unfold call_func in E. destruct (o_func o); [|congruence].
    destruct (g_func g); assert (X : l1 = l0 ++ [EFunc kg]) by congruence; rewrite X in I; apply in_app_or in I; destruct I as [I|[I|[]]]; auto; discriminate. }
  assert (S0 : In (EDown 0 b) [EStart kg] -> False) by (intros [I|[]]; discriminate).
  unfold generation in H.
  destruct (negb (r_run r && RunModel.g_wait g)); [assert (l = [EStart kg]) as -> by congruence; auto|].
  destruct (negb (g_loop g)); [assert (l = [EStart kg]) as -> by congruence; auto|].
  destruct (g_chal g); try (assert (l = [EStart kg]) as -> by congruence; auto; fail).
  destruct (truthy_goal (o_goal o)); [assert (l = [EStart kg]) as -> by congruence; auto|].
  destruct (inquire npsin (rcalls npsin (r_score r) (map CRir (g_rirs g))) (g_u g)) as [sc ans] eqn:EI.
  destruct ans as [[|]|e]; [| |assert (l = [EStart kg]) as -> by congruence; auto].
  - apply (CF _ _ _ _ _ H) in C. apply in_app_or in C. destruct C as [C|[C|[]]]; [auto|discriminate].
  - destruct kg as [|kg].
    + assert (N := rirs_none npsin (g_rirs g) _ (K eq_refl)). unfold inquire in EI. rewrite N in EI. congruence.
    + assert (D : forall lim, ~ In (EDown 0 b) ([EStart (S kg)] ++ [EDown (S kg) lim])).
      { intros lim I. apply in_app_or in I. destruct I as [I|[I|[]]]; [auto|discriminate]. }
      destruct (negb (o_bitter o) && fm_limited (fm_down (r_fm r))).
      * destruct (o_grave o <? r_dwell r + 1)%Z; [|exact (D _ (CF _ _ _ _ _ H C))].
        assert (X : l = [EStart (S kg)] ++ [EDown (S kg) (fm_limited (fm_down (r_fm r)))]) by congruence. rewrite X in C. exact (D _ C).
      * exact (D _ (CF _ _ _ _ _ H C)).
Qed.
Definition first_up (s : lst obj) : Prop :=
  (forall b, ~ In (EDown 0 b) (ltr s)) /\ (lkg s = 0 -> match lph s with LTop | LStart _ _ | LWait _ => rscore (r_score (lrs s)) = None | _ => True end).
Lemma first_up_left : forall c kg r l w, (forall b, ~ In (EDown 0 b) l) -> first_up (left c kg r l w).
Proof.
  intros c kg r l w N. unfold left. assert (N' : forall b, ~ In (EDown 0 b) (l ++ [EReport])) by (intros b I; apply in_app_or in I; destruct I as [I|[I|[]]]; [now apply (N b)|discriminate]).
  destruct w; try destruct (r_run r); split; cbn; auto.
Qed.
Lemma first_up_end : forall npsin up0 up1 o g s, (forall b, ~ In (EDown 0 b) (ltr s)) -> (lkg s = 0 -> rscore (r_score (lrs s)) = None) -> first_up (gen_end npsin up0 up1 o g s).
Proof.
  intros npsin up0 up1 o g s N K. unfold gen_end. destruct (generation _ _ _ _ _ _ _) as [[r l] w] eqn:E.
  assert (N' : forall b, ~ In (EDown 0 b) (ltr s ++ l)).
  { intros b I. apply in_app_or in I. destruct I as [I|I]; [exact (N b I)|exact (gen_down0 _ _ _ _ _ _ _ _ _ _ E K b I)]. }
  destruct w; [now apply first_up_left|]. unfold loop_head. destruct (_ <? _); [|now apply first_up_left]. split; [exact N'|]. cbn. discriminate.
Qed.
Lemma first_up_step : forall mk ev better hc xs npsin up0 up1 o s e s', lstep mk ev better hc xs npsin up0 up1 o s e = Some s' -> first_up s -> first_up s'.
Proof.
  intros mk ev better hc xs npsin up0 up1 o s e s' H [N K]. destruct e as [e| |q| | | |rirs u fo|]; unfold LoopModel.lstep in H.
  - destruct e; try discriminate; destruct (step _ _ _ _ _ (lch s) _); try discriminate; injection H as <-; split; auto.
  - destruct (lph s); try discriminate. destruct (ChalModel.run _); injection H as <-; [split; auto|now apply first_up_end].
  - destruct (lph s); try discriminate. destruct (_ && _); [|discriminate]. destruct (step _ _ _ _ _ (lch s) _); [|discriminate]. injection H as <-. split; auto.
  - destruct (lph s); try discriminate. destruct (_ <? _); [|discriminate]. injection H as <-. now apply first_up_end.
  - destruct (lph s); try discriminate. destruct (_ && _); [|discriminate]. injection H as <-. split; auto.
  - destruct (lph s); try discriminate.
    + destruct (ChalModel.run _); [discriminate|]. injection H as <-. now apply first_up_end.
    + destruct (existsb _ _); [injection H as <-; now apply first_up_end|]. destruct (ChalModel.run _); [discriminate|]. injection H as <-. now apply first_up_end.
  - destruct (lph s); try discriminate. destruct (_ && _); [|discriminate]. injection H as <-. now apply first_up_end.
  - destruct (lph s); try discriminate. injection H as <-. split; cbn; auto.
Qed.
Lemma first_up_exec : forall p sc s es x, sess_run p sc s es = Some x -> rscore sc = None -> first_up (fst x).
Proof.
  intros p sc s es x H R. unfold sess_run in H.
  assert (X0 : first_up (fst (cstart (q_o s) (p_iList p) (q_fm s) sc))).
  { unfold cstart, linit, loop_head. cbn [fst]. destruct (_ <? _); [split; cbn; auto|]. apply first_up_left. intros b []. }
  revert H X0. generalize (cstart (q_o s) (p_iList p) (q_fm s) sc). induction es as [|e es IH]; intros y H X0; cbn [CompModel.cexec] in H; [now injection H as <-|].
  destruct (CompModel.cstep _ _ _ _ _ _ _ _ _ _ _ _ _ _ _ _ y e) as [z|] eqn:E; [|discriminate]. apply (IH z H).
  destruct e as [e|k]; unfold CompModel.cstep in E.
  - destruct (lstep _ _ _ _ _ _ _ _ _ (fst y) e) as [s1|] eqn:E1; [|discriminate]. injection E as <-. cbn [fst]. eapply first_up_step; eauto.
  - destruct (_ || _); [|discriminate]. injection E as <-. exact X0.
Qed.
Theorem C114_restart : forall c f cb b c1 s es x, camp_step c (KReload f cb b) = Some c1 -> sess_run (k_pop c1) (k_score c1) s es = Some x ->
  forall lim, ~ In (EDown 0 lim) (ltr (fst x)).
Proof.
  intros c f cb b c1 s es x H Hx. destruct (step_load _ _ _ _ _ H) as (_ & _ & _ & _ & _ & R & _). exact (proj1 (first_up_exec _ _ _ _ _ Hx R)).
Qed.
Print Assumptions C114_restart.

(** *** C114: once a run is over nothing of it is at work any more: no evaluation is
    under way or will be, and the members stay as they are *)
Lemma idle_step : forall mk ev better hc xs npsin up0 up1 o (s s' : lst obj) e w, lstep mk ev better hc xs npsin up0 up1 o s e = Some s' ->
  lph s = LEnd w -> forallb (fun c => pdone c) (cs (lch s)) = true ->
  lph s' = LEnd w /\ forallb (fun c => pdone c) (cs (lch s')) = true /\ pop (lch s') = pop (lch s) /\ (forall d, e <> LC (EEvalDone d)).
Proof.
  intros mk ev better hc xs npsin up0 up1 o s s' e w H L AD. rewrite forallb_forall in AD.
  assert (ND : forall c q pp, nth_error (cs (lch s)) c = Some (mkChal q pp) -> pp = PDone).
  { intros c q pp E. apply nth_error_In, AD in E. unfold pdone in E. cbn [cpc] in E. destruct pp; try discriminate E. reflexivity. }
  destruct e as [e| |q| | | |rirs u f|]; cbn [LoopModel.lstep] in H; try (rewrite L in H; discriminate H).
  destruct e as [q|c|c|c|c|c|c| | |m]; try discriminate H; cbn [step] in H;
    try (destruct (nth_error (cs (lch s)) c) as [[q pp]|] eqn:E; [rewrite (ND c q pp E) in H|]; discriminate H).
  - assert (s' = mkL (mkSt (pop (lch s)) (locks (lch s)) (cs (lch s)) false (prun (lch s)) (abq (lch s))) (lph s) (lkg s) (lrs s) (ltr s)) as -> by congruence.
    cbn [lph lch pop cs]. split; [exact L|]. split; [now apply forallb_forall|]. split; [reflexivity|intros d C; discriminate C].
  - assert (s' = mkL (mkSt (pop (lch s)) (locks (lch s)) (cs (lch s)) (run (lch s)) false (abq (lch s) ++ seq 0 (length (locks (lch s))))) (lph s) (lkg s) (lrs s) (ltr s)) as -> by congruence.
    cbn [lph lch pop cs]. split; [exact L|]. split; [now apply forallb_forall|]. split; [reflexivity|intros d C; discriminate C].
  - destruct (nth_error (abq (lch s)) m) as [k|]; [|discriminate].
    match type of H with Some ?y = _ => assert (s' = y) as -> by congruence end. cbn [lph lch].
    split; [exact L|]. split; [|split; [rewrite release1_pop; reflexivity|intros d C; discriminate C]].
    apply forallb_forall. intros x Hx. apply In_nth_error in Hx. destruct Hx as [d Hx]. rewrite release1_cs in Hx. cbn [cs] in Hx.
    destruct (nth_error (cs (lch s)) d) as [[q pp]|] eqn:E; [|discriminate]. assert (P := ND d q pp E). rewrite P in Hx.
    match type of Hx with (if ?b then _ else _) = _ => destruct b end; assert (XE : x = mkChal q PDone) by (cbv beta iota delta [grant cpc] in Hx; congruence); rewrite XE; reflexivity.
Qed.
Theorem C114_idle : forall c s c' es y, camp_step c (KRun s) = Some c' -> k_busy c' = false -> p_running (k_pop c) <> Some false ->
  sess_run (k_pop c) (k_score c) s (q_events s ++ es) = Some y ->
  (forall d, ~ In (CL (LC (EEvalDone d))) es) /\ map ivalues (members_of y) = map ivalues (inds c').
Proof.
  intros c s c' es y H B R Hy. destruct (step_run _ _ _ H) as (_ & _ & [[N _]|[_ (x & Hx & E)]]); [contradiction|].
  rewrite E in B |- *. cbn [k_busy k_pop ran p_iList] in *. apply negb_false_iff in B. unfold over in B.
  destruct (lph (fst x)) as [| | | |w] eqn:L; try discriminate B.
  unfold sess_run in Hy, Hx. rewrite cexec_app, Hx in Hy. clear H E Hx R.
  assert (LV : forall B (a : obj), ivalues (look B a) = ivalues (oind a)) by (intros B0 a; unfold look; now destruct (existsb _ _)).
  assert (G : (forall d, ~ In (CL (LC (EEvalDone d))) es) /\ pop (lch (fst y)) = pop (lch (fst x))).
  { revert x L B Hy. generalize (length (inds c)). induction es as [|e es IH]; intros n x L B Hy; cbn [CompModel.cexec] in Hy.
    - assert (x = y) as -> by congruence. split; [intros d []|reflexivity].
    - match type of Hy with match ?z with _ => _ end = _ => destruct z as [x1|] eqn:E; [|discriminate] end. destruct e as [e|k]; cbn [CompModel.cstep] in E.
      + match type of E with match ?z with _ => _ end = _ => destruct z as [s1|] eqn:E1; [|discriminate] end. assert (x1 = (s1, snd x)) as -> by congruence.
        destruct (idle_step _ _ _ _ _ _ _ _ _ _ _ _ _ E1 L B) as (I1 & I2 & I3 & I4). destruct (IH n (s1, snd x) I1 I2 Hy) as [J1 J2]. cbn [fst] in J2.
        split; [intros d [K|K]; [injection K as K; now apply (I4 d)|now apply (J1 d)]|congruence].
      + match type of E with (if ?b then _ else _) = _ => destruct b; [|discriminate] end. assert (x1 = (fst x, k :: snd x)) as -> by congruence.
        destruct (IH n (fst x, k :: snd x) L B Hy) as [J1 J2]. split; [intros d [K|K]; [discriminate|now apply (J1 d)]|exact J2]. }
  destruct G as [G1 G2]. split; auto. unfold members_of. rewrite !map_map, G2. apply map_ext. intros a. now rewrite !LV.
Qed.
Print Assumptions C114_idle.

(** *** C114: what runs, saves and loads leave as it was, and the history *)
Lemma load_settings : forall c f cb b c', camp_step c (KReload f cb b) = Some c' ->
  p_popsize (k_pop c') = p_popsize (k_pop c) /\ p_target (k_pop c') = p_target (k_pop c) /\ p_sqs (k_pop c') = p_sqs (k_pop c) /\ pm_names (p_pm (k_pop c')) = pm_names (p_pm (k_pop c)) /\
  setstate (getstate (p_hist (k_pop c))) = Ok (p_hist (k_pop c')).
Proof.
  intros c f cb b c' H. unfold camp_step, pop_load, pop_setstate, pop_getstate in H. cbn [s_hist s_running s_Nd s_Np s_popsize s_target s_sqs s_iList s_pm s_constr] in H.
  destruct (setstate (getstate (p_hist (k_pop c)))) as [h|]; [|discriminate].
  cbn [bind p_Nd p_pm p_iList p_running p_Np p_popsize p_target p_sqs p_constr p_hist p_counter p_score p_locks p_onAbort] in H.
  destruct b as [[|b0 b]|].
  - cbn [bind fst snd p_sqs] in H. injection H as <-. cbn. repeat split; auto.
  - destruct (limit_all _ _ _) as [l'|] eqn:E; [|discriminate]. cbn [bind fst snd p_sqs] in H. injection H as <-. cbn. repeat split; auto.
  - cbn [bind fst snd p_sqs] in H. injection H as <-. cbn. repeat split; auto.
Qed.
Theorem C114_settings : forall ops c c', camp_exec c ops = Some c' ->
  p_popsize (k_pop c') = p_popsize (k_pop c) /\ p_target (k_pop c') = p_target (k_pop c) /\ p_sqs (k_pop c') = p_sqs (k_pop c) /\
  pm_names (p_pm (k_pop c')) = pm_names (p_pm (k_pop c)) /\ (same_bounds ops -> p_pm (k_pop c') = p_pm (k_pop c)).
Proof.
  induction ops as [|o ops IH]; intros c c' H; cbn [camp_exec] in H; [injection H as <-; auto|].
  destruct (camp_step c o) as [c1|] eqn:E; [|discriminate]. destruct (IH c1 c' H) as (A1 & A2 & A3 & A4 & A5). rewrite A1, A2, A3, A4.
  assert (SB : same_bounds (o :: ops) -> same_bounds ops) by (intros SB f cb b Hb; apply (SB f cb b); now right).
  destruct o as [s|f cb b].
  - destruct (step_run _ _ _ E) as (_ & _ & [[_ EC]|(_ & x & Hx & EC)]); rewrite EC in *; cbn [k_pop ran p_popsize p_target p_sqs p_pm] in *; auto 10.
  - destruct (load_settings _ _ _ _ _ E) as (B1 & B2 & B3 & B4 & _). destruct (step_load _ _ _ _ _ E) as (_ & _ & _ & _ & _ & _ & _ & M). repeat (split; [assumption|]).
    intros S. rewrite (A5 (SB S)). destruct (S f cb b (or_introl eq_refl)) as [EB|EB]; rewrite EB in M; tauto.
Qed.
(** the history of the population is the one the last run left, whatever that was *)
Theorem C114_history : forall c s c', camp_step c (KRun s) = Some c' -> p_running (k_pop c) <> Some false ->
  p_hist (k_pop c') = q_hist s /\
  forall f cb b c2, camp_step c' (KReload f cb b) = Some c2 -> setstate (getstate (q_hist s)) = Ok (p_hist (k_pop c2)).
Proof.
  intros c s c' H R. assert (E : p_hist (k_pop c') = q_hist s).
  { destruct (step_run _ _ _ H) as (_ & _ & [[N _]|[_ (x & Hx & E)]]); [contradiction|]. rewrite E. reflexivity. }
  split; [exact E|]. intros f cb b c2 L. rewrite <- E. apply (load_settings _ _ _ _ _ L).
Qed.
Print Assumptions C114_settings.
Print Assumptions C114_history.

(** *** C114: with no new bounds every member has values from the beginning or such as
    pass the constraints *)
Lemma sess_passes : forall p sc s es x i, sess_run p sc s es = Some x -> In i (members_of x) ->
  (exists i0, In i0 (p_iList p) /\ ivalues i = ivalues i0) \/ passesConstraints (pm_names (p_pm p)) (p_constr p) (ivalues i) = Ok true.
Proof.
  intros p sc s es x i H Hi. unfold members_of in Hi. apply in_map_iff in Hi. destruct Hi as (a & <- & Ha).
  assert (LV : ivalues (look (snd x) a) = ivalues (oind a)) by (unfold look; now destruct (existsb _ _)). rewrite LV.
  destruct (C110_simulates _ _ _ _ _ _ _ _ _ _ _ _ _ _ _ _ _ _ es x H) as [V HV].
  destruct (run_inv _ _ _ _ _ _ _ _ _ _ _ _ _ _ HV) as [[g Hg] _ _]. apply gexec_exec in Hg.
  assert (X : QI (fun a => (exists i0, In i0 (p_iList p) /\ ivalues (oind a) = ivalues i0) \/ passesConstraints (pm_names (p_pm p)) (p_constr p) (ivalues (oind a)) = Ok true) (lch (fst x))).
  { eapply QI_exec; [| |split|exact Hg].
    - intros c b1 b2 b3 b4 ch A1 A2 A3 A4 K. right. unfold mk_obj, mk_indiv in K. cbv zeta in K.
      match type of K with context [passesConstraints ?n ?l (challenger ?a ?b ?c ?d ?e ?f ?g ?h ?i)] => destruct (passesConstraints n l (challenger a b c d e f g h i)) as [[|]|] eqn:E; try discriminate K end.
      match type of K with Candidate ?y = _ => assert (ch = y) as -> by congruence end. exact E.
    - intros c b ch r Hch. unfold ev_obj. destruct (ev_indiv _ _ _ _ _ _) as [i|] eqn:E; [|discriminate]. intros K. cbn [option_map] in K.
      match type of K with Some ?y = _ => assert (r = y) as -> by congruence end. cbn [oind]. rewrite (ev_values _ _ _ _ _ _ _ E). exact Hch.
    - cbn [init pop]. apply Forall_forall. intros b Hb. unfold objects in Hb. apply in_map_iff in Hb. destruct Hb as ([k i] & <- & Hb).
      apply in_combine_r in Hb. left. exists i. auto.
    - constructor. }
  destruct X as [X _]. rewrite Forall_forall in X. auto.
Qed.
Theorem C114_constrained : forall ops c c', camp_exec c ops = Some c' -> same_bounds ops -> forall i, In i (inds c') ->
  (exists i0, In i0 (inds c) /\ ivalues i = ivalues i0) \/ passesConstraints (pm_names (p_pm (k_pop c))) (p_constr (k_pop c)) (ivalues i) = Ok true.
Proof.
  induction ops as [|o ops IH]; intros c c' H SB i Hi; cbn [camp_exec] in H; [injection H as <-; eauto|].
  destruct (camp_step c o) as [c1|] eqn:E; [|discriminate].
  assert (E1 : camp_exec c [o] = Some c1) by (cbn [camp_exec]; now rewrite E).
  destruct (C114_settings _ _ _ E1) as (_ & _ & _ & PN & _). destruct (C114_sizes _ _ _ E1) as (_ & _ & _ & PC).
  destruct (IH c1 c' H (fun f cb b Hb => SB f cb b (or_intror Hb)) i Hi) as [(i1 & I1 & V)|P]; [|right; rewrite <- PN, <- PC; exact P]. rewrite V.
  destruct o as [s|f cb b].
  - destruct (step_run _ _ _ E) as (_ & _ & [[_ EC]|(_ & x & Hx & EC)]); rewrite EC in I1; [eauto|]. cbn [k_pop ran p_iList] in I1. exact (sess_passes _ _ _ _ _ _ Hx I1).
  - destruct (step_load _ _ _ _ _ E) as (_ & _ & _ & _ & _ & _ & _ & M). left. exists i1. split; [|reflexivity].
    destruct (SB f cb b (or_introl eq_refl)) as [EB|EB]; rewrite EB in M; destruct M as [_ M]; rewrite M in I1; exact I1.
Qed.
Print Assumptions C114_constrained.

(** ** Five individuals; the function adds 6 to the first value *)
Definition kg_sse (v : list f64) : option f64 := Some (fadd (fofZ 6) (nth 0 v fzero)).
Definition k_ind (a b : Z) : indiv := mkIndiv [fofZ a; fofZ b] (kg_sse [fofZ a; fofZ b]) None.
Definition k_l5 : list indiv := [k_ind 1 1; k_ind 0 9; k_ind (-1) 0; k_ind (-2) 1; k_ind (-3) 3].
Definition k_pop0 : popn := mkPop (Some true) 2 5 1 fone fone k_l5 ex_pm [] exp_hist (Some 7) None 10 None [false; false; false; false; false] false.
Definition k_camp0 : camp := mkCamp k_pop0 (mkScore None fone) false.
Definition k_func (c : nat) (v : option (list f64)) : evalres := match v with Some v => EvSSE (kg_sse v) | None => EvSSE None end.
Definition k_sess (es : list cevent) : sess := mkSess (flit 1 (-1)) (fun _ => flit 1 (-1)) (fun _ => 0) (fun _ _ => flit 1 (-2))
  k_func (fun _ => fone) (fun _ => mkEvpop (Some true) 5) (fun _ => false) true (fun _ => flit (-1) 0) c_up89 c_up87 copts yfm es exp_hist.
(** one generation; half of one, then an abort *)
Definition k_all : list cevent := cgen4 ++ csteps (mkQuad 4 3 1 2) 4 ++ cend.
Definition k_half : list cevent := [CL LGo] ++ csteps (mkQuad 0 4 1 2) 0 ++ csteps (mkQuad 1 0 2 3) 1 ++ map CL [LC EPopAbort; LC EShutdown; LBreak].
Definition k_b : list (f64 * f64) := [(fzero, fofZ 5); (fzero, fofZ 10)].
Definition k_view (c : option camp) :=
  option_map (fun c => (p_running (k_pop c), k_busy c, match rscore (k_score c) with None => true | _ => false end,
                        map (fun i => match istored i with Some x => ftrunc (fmul (fofZ 100) x) | None => (-1)%Z end) (inds c))) c.
Definition k_ops : list cop := [KRun (k_sess k_half); KRun (k_sess k_all); KReload (Some 7) None None; KRun (k_sess k_all)].
Definition k_opsb : list cop := k_ops ++ [KReload (Some 8) (Some 9) (Some k_b); KRun (k_sess k_all)].
Lemma k_quiet : forall ops, (forall o, In o ops -> match o with KRun s => q_events s = k_half \/ q_events s = k_all | _ => True end) -> no_complaints ops.
Proof.
  intros ops H s k Hs C. destruct (H _ Hs) as [E|E]; rewrite E in C; unfold k_half, k_all, cgen4, csteps, cend, ysteps in C; cbn [map app] in C;
    repeat (destruct C as [C|C]; [discriminate C|]); exact C.
Qed.
Lemma k_opsb_all : forall P : cop -> Prop, P (KRun (k_sess k_half)) -> P (KRun (k_sess k_all)) -> P (KReload (Some 7) None None) -> P (KReload (Some 8) (Some 9) (Some k_b)) ->
  forall o, In o k_opsb -> P o.
Proof.
  intros P A B C D. apply Forall_forall. unfold k_opsb, k_ops. cbn [app].
  apply Forall_cons; [exact A|]. apply Forall_cons; [exact B|]. apply Forall_cons; [exact C|]. apply Forall_cons; [exact B|]. apply Forall_cons; [exact D|]. apply Forall_cons; [exact B|]. constructor.
Qed.
Lemma k_ops_all : forall P : cop -> Prop, P (KRun (k_sess k_half)) -> P (KRun (k_sess k_all)) -> P (KReload (Some 7) None None) -> forall o, In o k_ops -> P o.
Proof.
  intros P A B C. apply Forall_forall. unfold k_ops.
  apply Forall_cons; [exact A|]. apply Forall_cons; [exact B|]. apply Forall_cons; [exact C|]. apply Forall_cons; [exact B|]. constructor.
Qed.
Lemma k_ops_quiet : no_complaints k_ops /\ no_complaints k_opsb.
Proof. split; apply k_quiet; [apply k_ops_all|apply k_opsb_all]; cbn [q_events k_sess]; auto. Qed.
Lemma k_honest : honest_func kg_sse k_func.
Proof. intros c. split; auto. Qed.
Lemma k_runs : forall s, In (KRun s) k_opsb -> honest_func kg_sse (q_func s) /\ forall n, isfin (q_F s n) = true.
Proof.
  assert (X : forall o, In o k_opsb -> match o with KRun s => honest_func kg_sse (q_func s) /\ forall n, isfin (q_F s n) = true | _ => True end).
  { apply k_opsb_all; auto; (split; [exact k_honest|reflexivity]). }
  intros s H. exact (X _ H).
Qed.
Lemma k_same : same_bounds k_ops.
Proof.
  assert (X : forall o, In o k_ops -> match o with KReload _ _ b => b = None \/ b = Some [] | _ => True end) by (apply k_ops_all; auto).
  intros f cb b H. exact (X _ H).
Qed.
Lemma k_b_ok : ok_bounds k_b.
Proof. repeat constructor; try (apply okbound_dec; reflexivity); cbn [fst snd]; reflexivity || apply (okbound_dec fzero) || apply (okbound_dec (fofZ 5)) || apply (okbound_dec (fofZ 10)); reflexivity. Qed.
Lemma k_loads : forall f cb b, In (KReload f cb (Some b)) k_opsb -> length b = p_Nd (k_pop k_camp0) /\ ok_bounds b.
Proof.
  assert (X : forall o, In o k_opsb -> match o with KReload _ _ (Some b) => length b = p_Nd (k_pop k_camp0) /\ ok_bounds b | _ => True end).
  { apply k_opsb_all; auto. split; [reflexivity|exact k_b_ok]. }
  intros f cb b H. exact (X _ H).
Qed.
Lemma k_true : forall i, In i k_l5 -> istored i = kg_sse (ivalues i).
Proof. intros i. revert i. apply Forall_forall. repeat (apply Forall_cons; [reflexivity|]). constructor. Qed.
Lemma k_noNaN : forall i, In i k_l5 -> isnan (ind_SSE i) = false.
Proof. intros i. revert i. apply Forall_forall. unfold k_l5. repeat (apply Forall_cons; [vm_compute; reflexivity|]). constructor. Qed.
Lemma k_inb : forall i, In i k_l5 -> inbounds ex_pm (ivalues i).
Proof. intros i. revert i. apply Forall_forall. unfold k_l5. repeat (apply Forall_cons; [apply inbounds_ex; split; vm_compute; reflexivity|]). constructor. Qed.
(** an aborted run, one that does nothing, saving and loading, a whole run; then new bounds and a run *)
Example C114_nonvacuous : exists c c',
  camp_exec k_camp0 k_ops = Some c /\ camp_exec k_camp0 k_opsb = Some c' /\
  k_view (Some c) = Some (Some true, false, false, [250; 300; 275; 275; 287]%Z) /\
  k_view (camp_exec k_camp0 (firstn 1 k_ops)) = Some (Some false, false, true, [350; 400; 500; 400; 300]%Z) /\
  k_view (camp_exec k_camp0 (firstn 2 k_ops)) = k_view (camp_exec k_camp0 (firstn 1 k_ops)) /\
  k_view (Some c') = Some (Some true, false, false, [250; 300; 275; 275; 287]%Z) /\
  no_complaints k_ops /\ no_complaints k_opsb /\ same_bounds k_ops /\ (forall s, In (KRun s) k_opsb -> honest_func kg_sse (q_func s) /\ forall n, isfin (q_F s n) = true) /\
  (forall i, In i (inds k_camp0) -> istored i = kg_sse (ivalues i) /\ isnan (ind_SSE i) = false /\ inbounds (p_pm (k_pop k_camp0)) (ivalues i)) /\
  okpm (p_pm (k_pop k_camp0)) /\ length (pm_mins (p_pm (k_pop k_camp0))) = p_Nd (k_pop k_camp0) /\
  (forall f cb b, In (KReload f cb (Some b)) k_opsb -> b = [] \/ (length b = p_Nd (k_pop k_camp0) /\ ok_bounds b)).
Proof.
  assert (V1 : k_view (camp_exec k_camp0 k_ops) = Some (Some true, false, false, [250; 300; 275; 275; 287]%Z)) by (vm_compute; reflexivity).
  assert (V2 : k_view (camp_exec k_camp0 k_opsb) = Some (Some true, false, false, [250; 300; 275; 275; 287]%Z)) by (vm_compute; reflexivity).
  destruct (camp_exec k_camp0 k_ops) as [c|] eqn:E1; [|discriminate V1]. destruct (camp_exec k_camp0 k_opsb) as [c'|] eqn:E2; [|discriminate V2].
  exists c, c'. split; [reflexivity|]. split; [reflexivity|]. split; [exact V1|]. split; [vm_compute; reflexivity|]. split; [vm_compute; reflexivity|]. split; [exact V2|].
  split; [exact (proj1 k_ops_quiet)|]. split; [exact (proj2 k_ops_quiet)|].
  split; [exact k_same|]. split; [exact k_runs|].
  split; [intros i H; split; [exact (k_true i H)|split; [exact (k_noNaN i H)|exact (k_inb i H)]]|]. split; [exact ex_pm_ok|]. split; [reflexivity|].
  intros f cb b H. right. exact (k_loads f cb b H).
Qed.

(** *** refuted: with the same function throughout, the best individual's SSE is what
    the function gives for its values: new bounds move the individuals, their
    SSEs stay, and no challenger within the bounds does as well *)
Theorem C114_stale_refuted : ~ forall g ops c c', camp_exec c ops = Some c' -> no_complaints ops -> (forall s, In (KRun s) ops -> honest_func g (q_func s)) ->
  (forall i, In i (inds c) -> istored i = g (ivalues i)) -> okpm (p_pm (k_pop c)) -> (forall i, In i (inds c) -> inbounds (p_pm (k_pop c)) (ivalues i)) ->
  (forall f cb b, In (KReload f cb (Some b)) ops -> length b = p_Nd (k_pop c) /\ ok_bounds b) ->
  forall z, In z (inds c') -> (forall i, In i (inds c') -> fleb (ind_SSE z) (ind_SSE i) = true) -> istored z = g (ivalues z).
Proof.
  intros A. assert (V : match camp_exec k_camp0 k_opsb with
    | Some c => match inds c with
                | z :: _ => forallb (fun i => fleb (ind_SSE z) (ind_SSE i)) (inds c) && negb (feqb (ind_SSE z) (ind_SSE (mkIndiv [] (kg_sse (ivalues z)) None)))
                | [] => false end
    | None => false end = true) by (vm_compute; reflexivity).
  destruct (camp_exec k_camp0 k_opsb) as [c|] eqn:E; [|discriminate V]. destruct (inds c) as [|z L] eqn:EL; [discriminate V|].
  apply andb_true_iff in V. destruct V as [V1 V2]. rewrite forallb_forall in V1.
  assert (S : istored z = kg_sse (ivalues z)).
  { apply (A kg_sse k_opsb k_camp0 c E).
    - exact (proj2 k_ops_quiet).
    - intros s H. exact (proj1 (k_runs s H)).
    - exact k_true.
    - exact ex_pm_ok.
    - exact k_inb.
    - exact k_loads.
    - rewrite EL. now left.
    - rewrite EL. exact V1. }
  assert (X : feqb (ind_SSE z) (ind_SSE (mkIndiv [] (kg_sse (ivalues z)) None)) = true).
  { replace (ind_SSE (mkIndiv [] (kg_sse (ivalues z)) None)) with (ind_SSE z) by (unfold ind_SSE; cbn [istored]; now rewrite S).
    assert (Y := V1 z (or_introl eq_refl)). apply fleb_spec in Y. apply feqb_spec. tauto. }
  rewrite X in V2. discriminate V2.
Qed.
Print Assumptions C114_stale_refuted.

(** *** refuted: a new run on the same population begins as the first one did: it
    has the score the last one left, so it may lower F after its first generation *)
Theorem C114_second_run_refuted : ~ forall ops c c1 s es x, camp_exec c ops = Some c1 -> rscore (k_score c) = None ->
  sess_run (k_pop c1) (k_score c1) s es = Some x -> forall lim, ~ In (EDown 0 lim) (ltr (fst x)).
Proof.
  intros A. assert (V : match camp_exec k_camp0 [KRun (k_sess k_all)] with
    | Some c => option_map (fun x => ltr (fst x)) (sess_run (k_pop c) (k_score c) (k_sess k_all) k_all)
    | None => None end = Some [EStart 0; EDown 0 true; EFunc 0; EReport]) by (vm_compute; reflexivity).
  destruct (camp_exec k_camp0 [KRun (k_sess k_all)]) as [c|] eqn:E; [|discriminate V].
  destruct (sess_run (k_pop c) (k_score c) (k_sess k_all) k_all) as [x|] eqn:X; [|discriminate V]. cbn [option_map] in V.
  apply (A _ _ _ _ _ _ E eq_refl X true). assert (Y : ltr (fst x) = [EStart 0; EDown 0 true; EFunc 0; EReport]) by congruence. rewrite Y. right. now left.
Qed.
Print Assumptions C114_second_run_refuted.

(** ** A constraint: alpha less than 2 *)
Definition k_cn (d : pdict) : res bool := match dict_get d "alpha"%string with Some v => Ok (fltb v (fofZ 2)) | None => Raise KeyError end.
Definition k_campc : camp := mkCamp (mkPop (Some true) 2 5 1 fone fone k_l5 ex_pm [k_cn] exp_hist (Some 7) None 10 None [false; false; false; false; false] false) (mkScore None fone) false.
Definition k_passes (i : indiv) : bool := match passesConstraints (pm_names ex_pm) [k_cn] (ivalues i) with Ok b => b | Raise _ => false end.
(** the first run and the one after loading put new members in place, which pass *)
Example C114_constrained_nonvacuous :
  (k_view (camp_exec k_campc k_ops), option_map (fun c => forallb k_passes (inds c)) (camp_exec k_campc k_ops)) = (Some (Some true, false, false, [250; 300; 275; 275; 287]%Z), Some true) /\
  forallb k_passes k_l5 = true /\ same_bounds k_ops /\
  option_map (fun c => (k_busy c, p_running (k_pop c))) (camp_exec k_campc [KRun (k_sess k_half)]) = Some (false, Some false).
Proof. split; [vm_compute; reflexivity|]. split; [vm_compute; reflexivity|]. split; [exact k_same|vm_compute; reflexivity]. Qed.
(** *** refuted: members that pass the constraints go on doing so: new bounds move
    them, and the constraints are not checked *)
Theorem C114_constrained_refuted : ~ forall ops c c', camp_exec c ops = Some c' ->
  (forall i, In i (inds c) -> passesConstraints (pm_names (p_pm (k_pop c))) (p_constr (k_pop c)) (ivalues i) = Ok true) ->
  forall i, In i (inds c') -> passesConstraints (pm_names (p_pm (k_pop c'))) (p_constr (k_pop c')) (ivalues i) = Ok true.
Proof.
  intros A. set (ops := [KReload (Some 7) None (Some [(fofZ 2, fofZ 5); (fzero, fofZ 10)])]).
  assert (V : option_map (fun c => forallb (fun i => negb (k_passes i)) (inds c) && (length (inds c) =? 5)) (camp_exec k_campc ops) = Some true) by (vm_compute; reflexivity).
  destruct (camp_exec k_campc ops) as [c|] eqn:E; [|discriminate V]. destruct (inds c) as [|i L] eqn:EL; [cbn [option_map] in V; rewrite EL in V; discriminate V|].
  assert (P : passesConstraints (pm_names (p_pm (k_pop c))) (p_constr (k_pop c)) (ivalues i) = Ok true).
  { apply (A ops k_campc c E); [|rewrite EL; now left]. intros j Hj. assert (K : forallb k_passes k_l5 = true) by (vm_compute; reflexivity).
    rewrite forallb_forall in K. specialize (K j Hj). unfold k_passes in K. change (passesConstraints (pm_names (p_pm (k_pop k_campc))) (p_constr (k_pop k_campc)) (ivalues j)) with (passesConstraints (pm_names ex_pm) [k_cn] (ivalues j)).
    destruct (passesConstraints (pm_names ex_pm) [k_cn] (ivalues j)) as [b|]; [|discriminate K]. rewrite K. reflexivity. }
  destruct (C114_settings _ _ _ E) as (_ & _ & _ & PN & _). destruct (C114_sizes _ _ _ E) as (_ & _ & _ & PC). rewrite PN, PC in P. cbn [option_map] in V. rewrite EL in V.
  cbn [forallb] in V. assert (V' : negb (k_passes i) = true) by (destruct (negb (k_passes i)); [reflexivity|discriminate V]).
  unfold k_passes in V'. change (pm_names ex_pm) with (pm_names (p_pm (k_pop k_campc))) in V'. change [k_cn] with (p_constr (k_pop k_campc)) in V'. rewrite P in V'. discriminate V'.
Qed.
Print Assumptions C114_constrained_refuted.
