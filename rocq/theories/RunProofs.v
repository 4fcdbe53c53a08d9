(** Proofs about the generation loop and the improvement score *)
From Coq Require Import List Bool Arith ZArith Lia.
From Verif Require Import Flt FltMore Py FManModel RunModel.
Import ListNotations.
#[local] Arguments fadd : simpl never.
#[local] Arguments fsub : simpl never.
#[local] Arguments fmul : simpl never.
#[local] Arguments fdiv : simpl never.
#[local] Arguments fsqrt : simpl never.
#[local] Arguments fltb : simpl never.
#[local] Arguments fleb : simpl never.
#[local] Arguments feqb : simpl never.
#[local] Arguments fofZ : simpl never.
#[local] Arguments flit : simpl never.

(** ** Reading a log *)
Definition starts (l : list ev) : list nat := flat_map (fun e => match e with EStart k => [k] | _ => [] end) l.
Definition funcs (l : list ev) : list nat := flat_map (fun e => match e with EFunc k => [k] | _ => [] end) l.
(** for the unsuccessful generations since the last successful one, in order:
    was F limited? *)
Definition since_step (acc : list bool) (e : ev) : list bool :=
  match e with EUp _ => [] | EDown _ b => acc ++ [b] | _ => acc end.
Definition since_up (l : list ev) : list bool := fold_left since_step l [].
Definition count_true (l : list bool) : nat := length (filter (fun b => b) l).

Lemma starts_app : forall a b, starts (a ++ b) = starts a ++ starts b.
Proof. intros. apply flat_map_app. Qed.
Lemma funcs_app : forall a b, funcs (a ++ b) = funcs a ++ funcs b.
Proof. intros. apply flat_map_app. Qed.

(** ** F manager: once limited, limited until the next up *)
Definition LimI (f : fman) : Prop := fm_limited f = true -> fm_down f = f /\ fm_adaptive f = true.
Lemma LimI_init : forall F CR Np ad, LimI (fm_init F CR Np ad).
Proof. intros F CR Np ad. unfold LimI, fm_init. destruct F; [|destruct (feqb _ _)]; simpl; discriminate. Qed.
Lemma LimI_up : forall up0 up1 f, LimI f -> LimI (fm_up up0 up1 f) /\ (fm_limited (fm_up up0 up1 f) = true -> fm_adaptive f = false).
Proof.
  intros up0 up1 f I. unfold fm_up. destruct (fm_adaptive f) eqn:A; simpl.
  - assert (Q : forall g, fm_limited g = false -> LimI g /\ (fm_limited g = true -> true = false)) by (unfold LimI; split; congruence).
    destruct (fm_F f); repeat (match goal with |- context [if ?b then _ else _] => destruct b end); apply Q; reflexivity.
  - auto.
Qed.
Lemma LimI_down : forall f, LimI f -> LimI (fm_down f) /\ (fm_limited f = true -> fm_limited (fm_down f) = true).
Proof.
  intros f I. destruct (fm_limited f) eqn:L.
  - destruct (I L) as [E A]. rewrite E. auto.
  - split; [|discriminate]. unfold fm_down. destruct (fm_adaptive f) eqn:A; simpl; auto.
    destruct (fltb (fm_crit f) (fmul (scale0 f) (fm_lowest f))) eqn:E1. { unfold LimI, set_lowest. simpl. congruence. }
    destruct (fm_F f) as [x|lo hi] eqn:EF.
    + unfold LimI. intros _. split; [|exact A]. unfold fm_down. cbn [fm_adaptive set_limited fm_crit fm_F].
      rewrite A. simpl. unfold scale0, fm_lowest in *. cbn [fm_F set_limited]. rewrite EF in *. rewrite E1. reflexivity.
    + destruct (fltb (fmul three (fm_lowest f)) (fmul (scale1 f) hi)) eqn:E2. { unfold LimI, set_highest. cbn [fm_limited]. rewrite L. discriminate. }
      unfold LimI. intros _. split; [|exact A]. unfold fm_down. cbn [fm_adaptive set_limited fm_crit fm_F].
      rewrite A. simpl. unfold scale0, scale1, fm_lowest in *. cbn [fm_F set_limited]. rewrite EF in *. rewrite E1, E2. reflexivity.
Qed.
Lemma adaptive_down : forall f, fm_adaptive (fm_down f) = fm_adaptive f.
Proof.
  intros f. unfold fm_down. destruct (fm_adaptive f) eqn:A; simpl; auto.
  repeat (match goal with |- context [if ?b then _ else _] => destruct b | |- context [match ?b with FSingle _ => _ | FPair _ _ => _ end] => destruct b end); auto.
Qed.
Lemma adaptive_up : forall up0 up1 f, fm_adaptive (fm_up up0 up1 f) = fm_adaptive f.
Proof.
  intros up0 up1 f. unfold fm_up. destruct (fm_adaptive f) eqn:A; simpl; auto.
  destruct (fm_F f); repeat (match goal with |- context [if ?b then _ else _] => destruct b end); auto.
Qed.

Section G.
Variable npsin : f64 -> f64.
Variables up0 up1 : f64.
Notation generation := (generation npsin up0 up1).
Notation gens := (gens npsin up0 up1).
Notation run := (run npsin up0 up1).
Notation inquire := (inquire npsin).
Notation rcalls := (rcalls npsin).

Inductive fcall (o : opts) (kg : nat) (g : gen) (s : rst) : rst -> list ev -> option reason -> Prop :=
| F_none : o_func o = false -> fcall o kg g s s [] None
| F_ok : o_func o = true -> g_func g = FOk -> fcall o kg g s s [EFunc kg] None
| F_shut : o_func o = true -> g_func g = FShut -> fcall o kg g s (stop_run s) [EFunc kg] None
| F_raise : o_func o = true -> g_func g = FRaise -> fcall o kg g s s [EFunc kg] (Some (RRaised UserError)).

(** the challenges of the generation ran to their end with nobody shutting down *)
Definition completes (s : rst) (g : gen) : Prop :=
  r_run s = true /\ g_wait g = true /\ g_loop g = true /\ g_chal g = ChDone.
Definition answer (s : rst) (g : gen) : res bool := snd (inquire (rcalls (r_score s) (map CRir (g_rirs g))) (g_u g)).
Definition new_score (s : rst) (g : gen) : score := fst (inquire (rcalls (r_score s) (map CRir (g_rirs g))) (g_u g)).

Inductive gstep (o : opts) (kg : nat) (g : gen) (s : rst) : rst -> list ev -> option reason -> Prop :=
| G_shut : ~ completes s g -> gstep o kg g s (stop_run s) [EStart kg] (Some RShutdown)
| G_goal : completes s g -> truthy_goal (o_goal o) = true -> gstep o kg g s s [EStart kg] (Some (RRaised TypeError))
| G_err : forall e, completes s g -> truthy_goal (o_goal o) = false -> answer s g = Raise e ->
    gstep o kg g s (mkRst true (r_fm s) (r_dwell s) (new_score s g)) [EStart kg] (Some (RRaised e))
| G_up : forall s2 lf r, completes s g -> truthy_goal (o_goal o) = false -> answer s g = Ok true ->
    fcall o kg g (mkRst true (fm_up up0 up1 (r_fm s)) 0 (new_score s g)) s2 lf r ->
    gstep o kg g s s2 (EStart kg :: EUp kg :: lf) r
| G_dwell : completes s g -> truthy_goal (o_goal o) = false -> answer s g = Ok false ->
    o_bitter o = false -> fm_limited (fm_down (r_fm s)) = true -> (o_grave o < r_dwell s + 1)%Z ->
    gstep o kg g s (mkRst true (fm_down (r_fm s)) (r_dwell s + 1) (new_score s g)) [EStart kg; EDown kg true] (Some RDwell)
| G_lim : forall s2 lf r, completes s g -> truthy_goal (o_goal o) = false -> answer s g = Ok false ->
    o_bitter o = false -> fm_limited (fm_down (r_fm s)) = true -> (r_dwell s + 1 <= o_grave o)%Z ->
    fcall o kg g (mkRst true (fm_down (r_fm s)) (r_dwell s + 1) (new_score s g)) s2 lf r ->
    gstep o kg g s s2 (EStart kg :: EDown kg true :: lf) r
| G_down : forall s2 lf r, completes s g -> truthy_goal (o_goal o) = false -> answer s g = Ok false ->
    o_bitter o = true \/ fm_limited (fm_down (r_fm s)) = false ->
    fcall o kg g (mkRst true (fm_down (r_fm s)) (r_dwell s) (new_score s g)) s2 lf r ->
    gstep o kg g s s2 (EStart kg :: EDown kg (fm_limited (fm_down (r_fm s))) :: lf) r.

Lemma call_func_fcall : forall o kg g s l s2 l2 r, call_func o kg g s l = (s2, l2, r) -> exists lf, l2 = l ++ lf /\ fcall o kg g s s2 lf r.
Proof.
  intros o kg g s l s2 l2 r. unfold call_func. destruct (o_func o) eqn:E1; [destruct (g_func g) eqn:E2|]; intros [= <- <- <-].
  - exists [EFunc kg]. split; auto. now apply F_ok.
  - exists [EFunc kg]. split; auto. now apply F_shut.
  - exists [EFunc kg]. split; auto. now apply F_raise.
  - exists []. split; [now rewrite app_nil_r|]. now apply F_none.
Qed.
Lemma generation_gstep : forall o kg g s s2 l r, generation o kg g s = (s2, l, r) -> gstep o kg g s s2 l r.
Proof.
  intros o kg g s s2 l r. unfold RunModel.generation.
  destruct (r_run s) eqn:R. 2:{ simpl. intros [= <- <- <-]. apply G_shut. unfold completes. intuition congruence. }
  destruct (g_wait g) eqn:W. 2:{ simpl. intros [= <- <- <-]. apply G_shut. unfold completes. intuition congruence. }
  destruct (g_loop g) eqn:L. 2:{ simpl. intros [= <- <- <-]. apply G_shut. unfold completes. intuition congruence. }
  simpl. destruct (g_chal g) eqn:C; try (intros [= <- <- <-]; apply G_shut; unfold completes; intuition congruence).
  assert (Co : completes s g) by (unfold completes; auto).
  destruct (truthy_goal (o_goal o)) eqn:T. { intros [= <- <- <-]. now apply G_goal. }
  destruct (inquire _ _) as [sc ans] eqn:I.
  assert (A : answer s g = ans) by (unfold answer; now rewrite I). assert (N : new_score s g = sc) by (unfold new_score; now rewrite I).
  subst sc. destruct ans as [[|]|e].
  - intros H. apply call_func_fcall in H. destruct H as (lf & -> & H). simpl. now apply G_up.
  - destruct (negb (o_bitter o) && fm_limited (fm_down (r_fm s))) eqn:B.
    + apply andb_true_iff in B. destruct B as [B1 B2]. apply negb_true_iff in B1. rewrite B2.
      destruct (o_grave o <? r_dwell s + 1)%Z eqn:Gr.
      * intros [= <- <- <-]. apply Z.ltb_lt in Gr. now apply G_dwell.
      * apply Z.ltb_ge in Gr. intros H. apply call_func_fcall in H. destruct H as (lf & -> & H). simpl. now apply G_lim.
    + intros H. apply call_func_fcall in H. destruct H as (lf & -> & H). simpl. apply G_down; auto.
      apply andb_false_iff in B. rewrite negb_false_iff in B. tauto.
  - intros [= <- <- <-]. rewrite <- R. rewrite R. now apply G_err.
Qed.

(** the state after any number of generations *)
Inductive path (o : opts) (gs : nat -> gen) : nat -> rst -> nat -> rst -> list ev -> Prop :=
| P_nil : forall kg s, path o gs kg s kg s []
| P_cons : forall kg s s1 l1 kg' s' l, gstep o kg (gs kg) s s1 l1 None -> path o gs (S kg) s1 kg' s' l -> path o gs kg s kg' s' (l1 ++ l).
Lemma gens_path : forall o gs rem kg s s' l r, gens o rem kg gs s = (s', l, r) ->
  exists kg1 s1 l1 l2, path o gs kg s kg1 s1 l1 /\ l = l1 ++ l2 /\
  ((r = RMaxIter /\ kg1 = kg + rem /\ s' = s1 /\ l2 = []) \/ (kg1 < kg + rem /\ gstep o kg1 (gs kg1) s1 s' l2 (Some r))).
Proof.
  intros o gs. induction rem as [|rem IH]; intros kg s s' l r; simpl.
  - intros [= <- <- <-]. exists kg, s, [], []. split; [constructor|]. split; [reflexivity|]. left. repeat split; auto.
  - destruct (generation o kg (gs kg) s) as [[s1 l1] [r1|]] eqn:E.
    + intros [= <- <- <-]. apply generation_gstep in E. exists kg, s, [], l1. split; [constructor|]. split; auto. right. split; [lia|auto].
    + destruct (gens o rem (S kg) gs s1) as [[s2 l2] r2] eqn:E2. intros [= <- <- <-]. apply generation_gstep in E.
      destruct (IH _ _ _ _ _ E2) as (kg1 & s3 & l3 & l4 & P & -> & H).
      exists kg1, s3, (l1 ++ l3), l4. split; [eapply P_cons; eauto|]. split; [now rewrite app_assoc|].
      destruct H as [(A & B & C & D)|(A & B)]; [left|right]; repeat split; auto; lia.
Qed.

Lemma fcall_log : forall o kg g s s2 lf r, fcall o kg g s s2 lf r -> starts lf = [] /\
  funcs lf = (if o_func o then [kg] else []) /\ (forall acc, fold_left since_step lf acc = acc) /\
  r_fm s2 = r_fm s /\ r_dwell s2 = r_dwell s /\ r_score s2 = r_score s /\
  (r_run s2 = r_run s \/ (r_run s2 = false /\ o_func o = true /\ g_func g = FShut)) /\
  (r = None \/ (r = Some (RRaised UserError) /\ o_func o = true /\ g_func g = FRaise)).
Proof. clear npsin up0 up1. intros o kg g s s2 lf r H. destruct H as [E|E1 E2|E1 E2|E1 E2]; rewrite ?E, ?E1; simpl; intuition auto. Qed.
Lemma gstep_starts : forall o kg g s s2 l r, gstep o kg g s s2 l r -> starts l = [kg].
Proof. intros o kg g s s2 l r H. destruct H; auto; simpl; try (destruct (fcall_log _ _ _ _ _ _ _ H2) as [-> _]; auto); try (match goal with F : fcall _ _ _ _ _ _ _ |- _ => destruct (fcall_log _ _ _ _ _ _ _ F) as [-> _]; auto end). Qed.
Lemma gstep_funcs : forall o kg g s s2 l, gstep o kg g s s2 l None -> funcs l = if o_func o then [kg] else [].
Proof.
  intros o kg g s s2 l H. inversion H; subst; simpl; match goal with F : fcall _ _ _ _ _ _ _ |- _ => destruct (fcall_log _ _ _ _ _ _ _ F) as (_ & -> & _); auto end.
Qed.
Lemma gstep_funcs_end : forall o kg g s s2 l r, gstep o kg g s s2 l (Some r) -> funcs l = [] \/ (funcs l = [kg] /\ r = RRaised UserError /\ g_func g = FRaise /\ o_func o = true).
Proof.
  intros o kg g s s2 l r H. inversion H; subst; simpl; auto; match goal with F : fcall _ _ _ _ _ _ _ |- _ => destruct (fcall_log _ _ _ _ _ _ _ F) as (_ & -> & _ & _ & _ & _ & _ & [X|(X & Y & Z)]) end; try discriminate; injection X as ->; right; rewrite Y; auto.
Qed.
Lemma path_log : forall o gs kg s kg' s' l, path o gs kg s kg' s' l ->
  kg <= kg' /\ starts l = seq kg (kg' - kg) /\ funcs l = if o_func o then seq kg (kg' - kg) else [].
Proof.
  intros o gs kg s kg' s' l H. induction H as [kg s|kg s s1 l1 kg' s' l H1 H2 (L & IH1 & IH2)].
  - rewrite Nat.sub_diag. split; auto. split; auto. simpl. destruct (o_func o); auto.
  - split; [lia|]. rewrite starts_app, funcs_app, (gstep_starts _ _ _ _ _ _ _ H1), (gstep_funcs _ _ _ _ _ _ H1), IH1, IH2.
    replace (kg' - kg) with (S (kg' - S kg)) by lia. split; [reflexivity|]. destruct (o_func o); reflexivity.
Qed.

(** invariant of the dwell counter; [L] the log so far *)
Definition DInv (o : opts) (s : rst) (L : list ev) : Prop :=
  LimI (r_fm s) /\
  exists a b, since_up L = repeat false a ++ repeat true b /\
    (0 < b -> fm_limited (r_fm s) = true) /\
    (o_bitter o = false -> r_dwell s = Z.of_nat b /\ (Z.of_nat b <= Z.max 0 (o_grave o))%Z).
Lemma repeat_snoc : forall {A} (x : A) n, repeat x n ++ [x] = repeat x (S n).
Proof. intros A x. induction n; simpl; auto. now f_equal. Qed.
Lemma since_app : forall a b, since_up (a ++ b) = fold_left since_step b (since_up a).
Proof. intros. unfold since_up. apply fold_left_app. Qed.
Lemma DInv_fm : forall o s L l2 s2, DInv o s L -> r_fm s2 = r_fm s -> r_dwell s2 = r_dwell s -> (forall acc, fold_left since_step l2 acc = acc) -> DInv o s2 (L ++ l2).
Proof. intros o s L l2 s2 [A B] E1 E2 E3. unfold DInv. rewrite E1, E2, since_app, E3. auto. Qed.
Lemma DInv_step : forall o kg g s s2 l L, DInv o s L -> gstep o kg g s s2 l None -> DInv o s2 (L ++ l).
Proof.
  intros o kg g s s2 l L [I (a & b & E & B1 & B2)] H. inversion H; subst;
  (match goal with F : fcall _ _ _ _ _ _ _ |- _ => destruct (fcall_log _ _ _ _ _ _ _ F) as (_ & _ & F1 & F2 & F3 & _) end);
  cbn [r_fm r_dwell] in F2, F3; unfold DInv; rewrite F2, F3, since_app; simpl; rewrite F1.
  - split; [apply LimI_up; auto|]. exists 0, 0. split; [reflexivity|]. split; [lia|]. intros. split; [reflexivity|lia].
  - destruct (LimI_down _ I) as [I' LL]. split; auto. exists a, (S b). rewrite E, <- app_assoc, repeat_snoc. split; auto. split; auto.
    intros Hb. destruct (B2 Hb). lia.
  - destruct (LimI_down _ I) as [I' LL]. split; auto. destruct (fm_limited (fm_down (r_fm s))) eqn:El.
    + exists a, (S b). rewrite E, <- app_assoc, repeat_snoc. split; auto. split; auto. intros Hb. match goal with X : o_bitter o = true \/ _ |- _ => destruct X; congruence end.
    + destruct b as [|b]. 2:{ exfalso. assert (X := B1 ltac:(lia)). apply LL in X. discriminate X. }
      exists (S a), 0. rewrite E. simpl. rewrite !app_nil_r. split; [apply repeat_snoc|]. split; [lia|]. intros Hb. destruct (B2 Hb). lia.
Qed.
Lemma DInv_path : forall o gs kg s kg' s' l, path o gs kg s kg' s' l -> forall L, DInv o s L -> DInv o s' (L ++ l).
Proof.
  intros o gs kg s kg' s' l H. induction H as [kg s|kg s s1 l1 kg' s' l H1 H2 IH]; intros L D.
  - now rewrite app_nil_r.
  - rewrite app_assoc. apply IH. eapply DInv_step; eauto.
Qed.
Lemma count_repeat : forall a b, count_true (repeat false a ++ repeat true b) = b.
Proof.
  intros a b. unfold count_true. rewrite filter_app, app_length.
  assert (X : filter (fun b => b) (repeat false a) = []) by (induction a; simpl; auto). rewrite X. simpl.
  induction b; simpl; auto.
Qed.
(** at the start of every generation *)
Lemma path_prefix : forall o gs kg s kg' s' l, path o gs kg s kg' s' l -> forall L, DInv o s L ->
  forall l1 k l2, l = l1 ++ EStart k :: l2 -> exists s1, DInv o s1 (L ++ l1).
Proof.
  intros o gs kg s kg' s' l H. induction H as [kg s|kg s s1 la kg' s' l H1 H2 IH]; intros L D l1 k l2 E.
  - destruct l1; discriminate.
  - assert (Q : l1 = [] \/ exists l1', l1 = la ++ l1').
    { assert (Z : forall x, la = EStart kg :: x -> starts x = [] -> l1 = [] \/ exists l1', l1 = la ++ l1').
      { intros x -> Sx. destruct l1 as [|e1 l1]; auto. right. simpl in E. injection E as <- E.
        clear - Sx E. revert l1 E. induction x as [|e x IHx]; intros l1 E; [exists l1; reflexivity|].
        destruct l1 as [|e1 l1]; simpl in E; injection E as Ee E; subst.
        - simpl in Sx. discriminate.
        - destruct (IHx ltac:(simpl in Sx; destruct e1; try discriminate; auto) l1 E) as (t & Et). simpl in Et. injection Et as ->. exists t. reflexivity. }
      assert (Sl := gstep_starts _ _ _ _ _ _ _ H1).
      inversion H1; subst; simpl in Sl; injection Sl as Sl; eapply Z; try reflexivity; auto. }
    destruct Q as [->|(l1' & ->)].
    + exists s. now rewrite app_nil_r.
    + rewrite <- app_assoc in E. apply app_inv_head in E. rewrite app_assoc. eapply IH; eauto. eapply DInv_step; eauto.
Qed.

Lemma path_run : forall o gs kg s kg' s' l, path o gs kg s kg' s' l ->
  r_run s' = true \/ (kg' = kg /\ s' = s) \/ (kg < kg' /\ o_func o = true /\ g_func (gs (kg' - 1)) = FShut).
Proof.
  intros o gs kg s kg' s' l H. induction H as [kg s|kg s s1 l1 kg' s' l H1 H2 IH]; auto.
  assert (L := proj1 (path_log _ _ _ _ _ _ _ H2)).
  destruct IH as [IH|[[-> ->]|(A & B & C)]]; [now left| |].
  - inversion H1; subst; (match goal with F : fcall _ _ _ _ _ _ _ |- _ => destruct (fcall_log _ _ _ _ _ _ _ F) as (_ & _ & _ & _ & _ & _ & [X|(X & Y & Z)] & _) end);
    cbn [r_run] in X; auto; right; right; (replace (S kg - 1) with kg by lia); auto.
  - right. right. split; [lia|auto].
Qed.
Lemma rcalls_sqs : forall rs s, sqs (rcalls s (map CRir rs)) = sqs s.
Proof. induction rs as [|r rs IH]; intros s; auto. simpl. rewrite IH. destruct (rscore s); reflexivity. Qed.
Lemma inquire_sqs : forall s u, sqs (fst (inquire s u)) = sqs s.
Proof. intros s u. unfold RunModel.inquire. destruct (rscore s); reflexivity. Qed.
Lemma new_score_sqs : forall s g, sqs (new_score s g) = sqs (r_score s).
Proof. intros. unfold new_score. now rewrite inquire_sqs, rcalls_sqs. Qed.
Lemma gstep_sqs : forall o kg g s s2 l r, gstep o kg g s s2 l r -> sqs (r_score s2) = sqs (r_score s).
Proof.
  intros o kg g s s2 l r H. destruct H; cbn [r_score stop_run]; auto using new_score_sqs;
  (match goal with F : fcall _ _ _ _ _ _ _ |- _ => destruct (fcall_log _ _ _ _ _ _ _ F) as (_ & _ & _ & _ & _ & X & _) end); rewrite X; apply new_score_sqs.
Qed.
Lemma path_sqs : forall o gs kg s kg' s' l, path o gs kg s kg' s' l -> sqs (r_score s') = sqs (r_score s).
Proof. intros o gs kg s kg' s' l H. induction H; auto. rewrite IHpath. eapply gstep_sqs; eauto. Qed.
Lemma answer_raise : forall s g e, answer s g = Raise e -> e = ZeroDivisionError /\ feqb (sqs (r_score s)) fzero = true.
Proof.
  intros s g e. unfold answer, RunModel.inquire. set (q := rcalls _ _). assert (Q : sqs q = sqs (r_score s)) by apply rcalls_sqs.
  destruct (rscore q); simpl; [|discriminate]. unfold keep_sq. rewrite Q. destruct (feqb _ _); [intros [= <-]; auto|]. destruct (fltb _ _); discriminate.
Qed.
Lemma path_adaptive : forall o gs kg s kg' s' l, path o gs kg s kg' s' l -> fm_adaptive (r_fm s') = fm_adaptive (r_fm s).
Proof.
  intros o gs kg s kg' s' l H. induction H as [|kg s s1 l1 kg' s' l H1 H2 IH]; auto. rewrite IH.
  inversion H1; subst; (match goal with F : fcall _ _ _ _ _ _ _ |- _ => destruct (fcall_log _ _ _ _ _ _ _ F) as (_ & _ & _ & X & _) end);
  rewrite X; cbn [r_fm]; rewrite ?adaptive_down, ?adaptive_up; auto.
Qed.
Definition no_report (l : list ev) : Prop := ~ In EReport l.
Lemma fcall_no_report : forall o kg g s s2 lf r, fcall o kg g s s2 lf r -> no_report lf.
Proof. clear npsin up0 up1. intros o kg g s s2 lf r H. unfold no_report. destruct H; simpl; intuition congruence. Qed.
Lemma gstep_no_report : forall o kg g s s2 l r, gstep o kg g s s2 l r -> no_report l.
Proof.
  intros o kg g s s2 l r H. destruct H; try (match goal with F : fcall _ _ _ _ _ _ _ |- _ => apply fcall_no_report in F end); unfold no_report in *; simpl; intuition congruence.
Qed.
Lemma path_no_report : forall o gs kg s kg' s' l, path o gs kg s kg' s' l -> no_report l.
Proof.
  intros o gs kg s kg' s' l H. induction H; [intros []|]. unfold no_report in *. rewrite in_app_iff. intros [X|X]; auto. revert X. eapply gstep_no_report; eauto.
Qed.
End G.
