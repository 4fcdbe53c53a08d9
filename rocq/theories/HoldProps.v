(** * Property C117: which constraints a parameter manager enforces, with several
    managers and lists that are shared *)
From Coq Require Import String List Bool Arith ZArith Lia.
From Verif Require Import Flt Py ParamModel HoldModel.
Import ListNotations.
Local Open Scope nat_scope.

(** *** what an answer to values should be, for these constraints in this order:
    true if all accept, false if one rejects that all before it let through, and
    the exception of the first one that raises or cannot be called otherwise *)
Definition accepts (d : pdict) (f : option constr) : Prop := exists c, f = Some c /\ c d = Ok true.
Definition says (names : list string) (fs : list (option constr)) (v : list f64) (r : res bool) : Prop :=
  let d := mk_params names v in
  (r = Ok true <-> Forall (accepts d) fs) /\
  (r = Ok false <-> exists l1 c l2, fs = l1 ++ Some c :: l2 /\ Forall (accepts d) l1 /\ c d = Ok false) /\
  (forall e, r = Raise e <-> exists l1 f l2, fs = l1 ++ f :: l2 /\ Forall (accepts d) l1 /\
     ((f = None /\ e = TypeError) \/ exists c, f = Some c /\ c d = Raise e)).

Lemma forall_inv : forall {A} (P : A -> Prop) a l, Forall P (a :: l) -> P a /\ Forall P l.
Proof. intros A P a l H. inversion H; auto. Qed.
Lemma ask_says : forall names fs v, says names fs v (fst (ask fs (mk_params names v))).
Proof.
  intros names fs v. unfold says. set (d := mk_params names v). clearbody d. induction fs as [|f fs IH].
  - simpl. split; [split; auto|]. split; [|intros e]; split; try discriminate; intros (l1 & f & l2 & C & _); destruct l1; discriminate.
  - assert (N : forall x, f :: fs = x -> forall l1 g l2, x = l1 ++ g :: l2 -> Forall (accepts d) l1 -> ~ accepts d f -> l1 = [] /\ g = f).
    { intros x <- l1 g l2 E F0 Nf. destruct l1 as [|y l1]; [injection E; auto|]. injection E as <- _. apply forall_inv in F0. tauto. }
    assert (STOP : forall r, ~ accepts d f -> (r = Ok false <-> exists c, f = Some c /\ c d = Ok false) ->
      (forall e, r = Raise e <-> (f = None /\ e = TypeError) \/ exists c, f = Some c /\ c d = Raise e) -> r <> Ok true ->
      (r = Ok true <-> Forall (accepts d) (f :: fs)) /\
      (r = Ok false <-> exists l1 c l2, f :: fs = l1 ++ Some c :: l2 /\ Forall (accepts d) l1 /\ c d = Ok false) /\
      (forall e, r = Raise e <-> exists l1 g l2, f :: fs = l1 ++ g :: l2 /\ Forall (accepts d) l1 /\ ((g = None /\ e = TypeError) \/ exists c, g = Some c /\ c d = Raise e))).
    { intros r Nf R1 R2 R3. split; [split; [congruence|intros C; apply forall_inv in C; tauto]|]. split; [|intros e]; split.
      - intros C. apply R1 in C. destruct C as (c & -> & C). now exists [], c, fs.
      - intros (l1 & c & l2 & E & F0 & C). destruct (N _ eq_refl _ _ _ E F0 Nf) as [_ G]. apply R1. now exists c.
      - intros C. apply R2 in C. now exists [], f, fs.
      - intros (l1 & g & l2 & E & F0 & C). destruct (N _ eq_refl _ _ _ E F0 Nf) as [_ ->]. now apply R2. }
    simpl. destruct f as [c|].
    + destruct (c d) as [[|]|e0] eqn:Ec.
      * assert (A : accepts d (Some c)) by now exists c. destruct IH as (I1 & I2 & I3). split; [|split; [|intros e]].
        -- rewrite I1. split; [now constructor|]. intros C. now apply forall_inv in C.
        -- rewrite I2. split; intros (l1 & c' & l2 & E & F0 & C).
           ++ exists (Some c :: l1), c', l2. rewrite E. repeat split; auto.
           ++ destruct l1 as [|y l1]; [injection E as <- _; congruence|]. injection E as <- E. apply forall_inv in F0. exists l1, c', l2. tauto.
        -- rewrite I3. split; intros (l1 & c' & l2 & E & F0 & C).
           ++ exists (Some c :: l1), c', l2. rewrite E. repeat split; auto.
           ++ destruct l1 as [|y l1]; [injection E as <- _; destruct C as [[C _]|(c1 & [= <-] & C)]; congruence|].
              injection E as <- E. apply forall_inv in F0. exists l1, c', l2. tauto.
      * apply STOP; simpl; try discriminate.
        -- intros (c' & [= <-] & C). congruence.
        -- split; auto. intros _. now exists c.
        -- intros e. split; [discriminate|]. intros [[C _]|(c' & [= <-] & C)]; congruence.
      * apply STOP; simpl; try discriminate.
        -- intros (c' & [= <-] & C). congruence.
        -- split; [discriminate|]. intros (c' & [= <-] & C). congruence.
        -- intros e. split; [intros [= <-]; right; now exists c|]. intros [[C _]|(c' & [= <-] & C)]; congruence.
    + apply STOP; simpl; try discriminate.
      * intros (c' & C & _). discriminate.
      * split; [discriminate|]. intros (c' & C & _). discriminate.
      * intros e. split; [intros [= <-]; auto|]. intros [[_ ->]|(c' & C & _)]; [auto|discriminate].
Qed.
Lemma put_length : forall {A} k (x : A) l, length (put k x l) = length l.
Proof. intros A k x l. revert k. induction l as [|y l IH]; intros [|k]; simpl; auto. Qed.
Lemma put_nth : forall {A} k (x : A) l i, nth_error (put k x l) i = if (i =? k) && (k <? length l) then Some x else nth_error l i.
Proof.
  intros A k x l. revert k. induction l as [|y l IH]; intros [|k] [|i]; simpl; auto.
  - destruct (i =? k); auto.
  - rewrite IH. reflexivity.
Qed.
Lemma put_nthd : forall {A} k (x : A) l i d, nth i (put k x l) d = if (i =? k) && (k <? length l) then x else nth i l d.
Proof.
  intros A k x l. revert k. induction l as [|y l IH]; intros [|k] [|i] d; simpl; auto.
  - destruct (i =? k); auto.
  - rewrite IH. reflexivity.
Qed.
Lemma nth_app : forall {A} (l l' : list A) i d, i < length l -> nth i (l ++ l') d = nth i l d.
Proof. intros. now apply app_nth1. Qed.

(** ** what there is *)
Record WF (w : world) : Prop := {
  wf_0 : 0 < length (lists w);
  wf_m : forall a, In a (mine w) -> 0 < a < length (lists w);
  wf_g : forall x, In x (mgrs w) -> match m_held x with HList a => a < length (lists w) | HTuple _ => True | HIter k => k < length (iters w) end }.
Lemma in_put : forall {A} k (x y : A) l, In y (put k x l) -> y = x \/ In y l.
Proof. intros A k x y l. revert k. induction l as [|z l IH]; intros [|k] H; simpl in *; auto; destruct H as [H|H]; auto. apply IH in H. tauto. Qed.
Lemma hold_WF : forall w a ls h, WF w -> hold w a = Some (ls, h) ->
  (exists l, ls = lists w ++ l) /\ match h with HList a => a < length ls | HTuple _ => True | HIter k => k < length (iters w) end.
Proof.
  intros w a ls h [W1 W2 W3] H. destruct a as [|f|k|l|k]; simpl in H.
  - injection H as <- <-. split; auto. exists []. now rewrite app_nil_r.
  - injection H as <- <-. split; [eauto|]. rewrite app_length. simpl. lia.
  - destruct (nth_error (mine w) k) as [x|] eqn:E; [|discriminate]. injection H as <- <-. split; [exists []; now rewrite app_nil_r|].
    apply nth_error_In in E. now apply W2.
  - injection H as <- <-. split; auto. exists []. now rewrite app_nil_r.
  - destruct (Nat.ltb_spec k (length (iters w))); [|discriminate]. injection H as <- <-. split; auto. exists []. now rewrite app_nil_r.
Qed.
(** lists only get longer, iterators shorter, and the caller keeps its lists *)
Lemma step_grow : forall w o w' x, WF w -> hstep w o = Some (w', x) ->
  length (lists w) <= length (lists w') /\ length (iters w) <= length (iters w') /\
  (forall a, a < length (lists w) -> exists l, nth a (lists w') [] = nth a (lists w) [] ++ l) /\
  (forall k a, nth_error (mine w) k = Some a -> nth_error (mine w') k = Some a) /\
  (forall m y, nth_error (mgrs w) m = Some y -> (forall args, o <> OSet m args) -> nth_error (mgrs w') m = Some y) /\
  (forall m y, nth_error (mgrs w) m = Some y -> exists y', nth_error (mgrs w') m = Some y' /\ m_names y' = m_names y).
Proof.
  intros w o w' x W H.
  assert (SAME : forall a, a < length (lists w) -> exists l : list item, nth a (lists w) [] = nth a (lists w) [] ++ l) by (intros a _; exists []; now rewrite app_nil_r).
  assert (APP : forall l' a, a < length (lists w) -> exists l : list item, nth a (lists w ++ l') [] = nth a (lists w) [] ++ l).
  { intros l' a Ha. rewrite nth_app by auto. now apply SAME. }
  assert (NE : forall {B} (l l' : list B) k a, nth_error l k = Some a -> nth_error (l ++ l') k = Some a).
  { intros B l l' k a E. rewrite nth_error_app1; auto. apply nth_error_Some. congruence. }
  assert (PUT : forall b f a, a < length (lists w) -> exists l, nth a (put b (nth b (lists w) [] ++ [f]) (lists w)) [] = nth a (lists w) [] ++ l).
  { intros b f a Ha. rewrite put_nthd. destruct (Nat.eqb_spec a b) as [->|]; simpl; [|now apply SAME].
    destruct (b <? length (lists w)); [eauto|now apply SAME]. }
  destruct o as [l|l|names nb a|m args|k f|m f|m values]; cbn [hstep] in H.
  - injection H as <- <-. cbn [lists mine iters mgrs]. rewrite app_length. repeat split; eauto. lia.
  - injection H as <- <-. cbn [lists mine iters mgrs]. rewrite app_length. repeat split; eauto. lia.
  - destruct (hold w a) as [[ls h]|] eqn:E; [|discriminate]. destruct (hold_WF w a ls h W E) as [[l ->] _].
    destruct (nb =? length names); injection H as <- <-; cbn [lists mine iters mgrs]; rewrite ?app_length; repeat split; eauto; lia.
  - destruct (nth_error (mgrs w) m) as [y|] eqn:E; [|discriminate]. destruct (forallb _ args); injection H as <- <-; cbn [lists mine iters mgrs];
      rewrite ?app_length; repeat split; eauto; try lia.
    + intros m' y' E' N. rewrite put_nth. destruct (Nat.eqb_spec m' m) as [->|]; auto. now elim (N args).
    + intros m' y' E'. rewrite put_nth. destruct (Nat.eqb_spec m' m) as [->|]; simpl; eauto.
      destruct (m <? length (mgrs w)); eauto. eexists. split; [reflexivity|]. simpl. congruence.
  - destruct (nth_error (mine w) k) as [b|]; [|discriminate]. injection H as <- <-. cbn [lists mine iters mgrs]. rewrite put_length. repeat split; eauto.
  - destruct (nth_error (mgrs w) m) as [y|] eqn:E; [|discriminate]. destruct (m_held y); injection H as <- <-; cbn [lists mine iters mgrs]; rewrite ?put_length; repeat split; eauto.
  - destruct (nth_error (mgrs w) m) as [y|] eqn:E; [|discriminate].
    assert (G : lists w' = lists w /\ mine w' = mine w /\ length (iters w') = length (iters w) /\ mgrs w' = mgrs w).
    { destruct (m_held y) as [b|l|k].
      - destruct (items w (HList b)); injection H as <- <-; auto.
      - destruct (items w (HTuple l)); injection H as <- <-; auto.
      - destruct (ask _ _) as [r l]. injection H as <- <-. cbn [lists mine iters mgrs]. rewrite put_length. auto. }
    destruct G as (-> & -> & -> & ->). repeat split; eauto.
Qed.
Lemma WF_step : forall w o w' x, WF w -> hstep w o = Some (w', x) -> WF w'.
Proof.
  intros w o w' x W H. destruct (step_grow w o w' x W H) as (G1 & G2 & _). assert (W0 := W). destruct W as [W1 W2 W3].
  assert (K : forall y, In y (mgrs w) -> match m_held y with HList a => a < length (lists w') | HTuple _ => True | HIter k => k < length (iters w') end).
  { intros y Hy. specialize (W3 y Hy). destruct (m_held y); auto; lia. }
  split; [lia| |].
  - intros a Ha. assert (X : In a (mine w) \/ exists l, o = OList l /\ a = length (lists w)).
    { destruct o as [l|l|names nb b|m args|k f|m f|m values]; cbn [hstep] in H.
      - injection H as <- <-. cbn [mine] in Ha. apply in_app_or in Ha. destruct Ha as [Ha|[<-|[]]]; eauto.
      - injection H as <- <-. auto.
      - destruct (hold w b) as [[ls h]|]; [|discriminate]. destruct (nb =? length names); injection H as <- <-; auto.
      - destruct (nth_error (mgrs w) m); [|discriminate]. destruct (forallb _ args); injection H as <- <-; auto.
      - destruct (nth_error (mine w) k); [|discriminate]. injection H as <- <-. auto.
      - destruct (nth_error (mgrs w) m) as [y|]; [|discriminate]. destruct (m_held y); injection H as <- <-; auto.
      - destruct (nth_error (mgrs w) m) as [y|]; [|discriminate]. destruct (m_held y) as [c|c|c]; [destruct (items _ _)|destruct (items _ _)|destruct (ask _ _)]; injection H as <- <-; auto. }
    destruct X as [X|(l & -> & ->)]; [specialize (W2 a X); lia|]. injection H as <- <-. cbn [lists]. rewrite app_length. simpl. lia.
  - intros y Hy. destruct o as [l|l|names nb b|m args|k f|m f|m values]; cbn [hstep] in H.
    + injection H as <- <-. now apply K.
    + injection H as <- <-. now apply K.
    + destruct (hold w b) as [[ls h]|] eqn:E; [|discriminate]. destruct (hold_WF w b ls h W0 E) as [_ Hh].
      destruct (nb =? length names); injection H as <- <-; [|now apply K]. cbn [mgrs] in Hy. apply in_app_or in Hy. destruct Hy as [Hy|[<-|[]]]; [now apply K|].
      cbn [m_held lists iters]. exact Hh.
    + destruct (nth_error (mgrs w) m); [|discriminate]. destruct (forallb _ args); injection H as <- <-; [|now apply K].
      cbn [mgrs] in Hy. apply in_put in Hy. destruct Hy as [->|Hy]; [|now apply K]. cbn [m_held lists]. rewrite app_length. simpl. lia.
    + destruct (nth_error (mine w) k); [|discriminate]. injection H as <- <-. now apply K.
    + destruct (nth_error (mgrs w) m) as [z|]; [|discriminate]. destruct (m_held z); injection H as <- <-; now apply K.
    + destruct (nth_error (mgrs w) m) as [z|]; [|discriminate]. destruct (m_held z) as [c|c|c]; [destruct (items _ _)|destruct (items _ _)|destruct (ask _ _)]; injection H as <- <-; now apply K.
Qed.
Lemma WF_run : forall os w w' xs, WF w -> hrun w os = Some (w', xs) -> WF w'.
Proof.
  induction os as [|o os IH]; intros w w' xs W H; cbn [hrun] in H; [now injection H as <- _|].
  destruct (hstep w o) as [[w1 x]|] eqn:E; [|discriminate]. destruct (hrun w1 os) as [[w2 ys]|] eqn:E2; [|discriminate]. injection H as <- <-.
  eapply IH; [eapply WF_step; eauto|eauto].
Qed.
Lemma WF_0 : WF w0.
Proof. split; simpl; auto; intros ? []. Qed.

(** ** constraints that are the manager's alone *)
Record own (w : world) (m : nat) (y : mgr) (l : list item) : Prop := {
  ow_m : nth_error (mgrs w) m = Some y;
  ow_i : items w (m_held y) = l;
  ow_p : match m_held y with
         | HList a => 0 < a < length (lists w) /\ ~ In a (mine w) /\ (forall m' y', nth_error (mgrs w) m' = Some y' -> m' <> m -> m_held y' <> HList a)
         | HTuple _ => True
         | HIter _ => False end }.
(** nobody sets this manager's constraints or appends to its attribute *)
Definition let_alone (m : nat) (o : op) : Prop := match o with OSet m' _ | OExtend m' _ => m' <> m | _ => True end.
Lemma hold_old : forall w a ls h b, WF w -> hold w a = Some (ls, h) -> 0 < b < length (lists w) -> ~ In b (mine w) -> h <> HList b.
Proof.
  intros w a ls h b W H Hb Nb. destruct a as [|f|k|l|k]; simpl in H.
  - injection H as <- <-. intros [= C]. lia.
  - injection H as <- <-. intros [= C]. lia.
  - destruct (nth_error (mine w) k) as [x|] eqn:E; [|discriminate]. injection H as <- <-. intros [= ->]. apply Nb. eapply nth_error_In; eauto.
  - injection H as <- <-. discriminate.
  - destruct (k <? length (iters w)); [|discriminate]. injection H as <- <-. discriminate.
Qed.
Lemma own_step : forall w o w' x m y l, WF w -> own w m y l -> let_alone m o -> hstep w o = Some (w', x) -> own w' m y l.
Proof.
  intros w o w' x m y l W [O1 O2 O3] A H. destruct (step_grow w o w' x W H) as (G1 & _ & _ & _ & G4 & _).
  assert (M' : nth_error (mgrs w') m = Some y) by (apply G4; auto; intros args ->; simpl in A; congruence).
  destruct (m_held y) as [a|t|k] eqn:Eh; [|split; [auto|rewrite Eh; exact O2|now rewrite Eh]|destruct O3].
  destruct O3 as (P1 & P2 & P3).
  assert (X : nth a (lists w') [] = nth a (lists w) [] /\ ~ In a (mine w') /\
     (forall m' y', nth_error (mgrs w') m' = Some y' -> m' <> m -> m_held y' <> HList a)).
  { destruct o as [l0|l0|names nb b|m0 args|k f|m0 f|m0 values]; cbn [hstep] in H.
    - injection H as <- <-. cbn [lists mine mgrs]. split; [rewrite nth_app; [auto|lia]|]. split; auto. intros C. apply in_app_or in C. destruct C as [C|[C|[]]]; [auto|lia].
    - injection H as <- <-. auto.
    - destruct (hold w b) as [[ls h]|] eqn:E; [|discriminate]. destruct (hold_WF w b ls h W E) as [[l1 ->] _].
      destruct (nb =? length names); injection H as <- <-; auto. cbn [lists mine mgrs]. split; [rewrite nth_app; [auto|lia]|]. split; auto.
      intros m' y' E' N. destruct (Nat.lt_ge_cases m' (length (mgrs w))).
      + rewrite nth_error_app1 in E' by auto. eauto.
      + rewrite nth_error_app2 in E' by auto. destruct (m' - length (mgrs w)) as [|[|?]]; try discriminate. injection E' as <-. cbn [m_held].
        eapply hold_old; eauto.
    - destruct (nth_error (mgrs w) m0) as [z|] eqn:E; [|discriminate]. destruct (forallb _ args); injection H as <- <-; auto.
      cbn [lists mine mgrs]. split; [rewrite nth_app; [auto|lia]|]. split; auto. intros m' y' E' N. rewrite put_nth in E'.
      destruct ((m' =? m0) && (m0 <? length (mgrs w))); [|eauto]. injection E' as <-. cbn [m_held]. intros [= C]. lia.
    - destruct (nth_error (mine w) k) as [b|] eqn:E; [|discriminate]. injection H as <- <-. cbn [lists mine mgrs]. split; auto.
      rewrite put_nthd. destruct (Nat.eqb_spec a b) as [->|]; auto. elim P2. eapply nth_error_In; eauto.
    - destruct (nth_error (mgrs w) m0) as [z|] eqn:E; [|discriminate]. destruct (m_held z) as [b|b|b] eqn:Ez; injection H as <- <-; auto.
      cbn [lists mine mgrs]. split; auto. rewrite put_nthd. destruct (Nat.eqb_spec a b) as [->|]; auto. elim (P3 m0 z E); auto.
    - destruct (nth_error (mgrs w) m0) as [z|] eqn:E; [|discriminate]. destruct (m_held z) as [c|c|c]; [destruct (items w (HList c))|destruct (items w (HTuple c))|destruct (ask _ _)]; injection H as <- <-; auto. }
  destruct X as (X1 & X2 & X3). split; auto; rewrite Eh; simpl in *; [congruence|]. repeat split; auto; lia.
Qed.
Lemma own_run : forall os w w' xs m y l, WF w -> own w m y l -> Forall (let_alone m) os -> hrun w os = Some (w', xs) -> own w' m y l.
Proof.
  induction os as [|o os IH]; intros w w' xs m y l W O A H; cbn [hrun] in H; [now injection H as <- _|].
  destruct (hstep w o) as [[w1 x]|] eqn:E; [|discriminate]. destruct (hrun w1 os) as [[w2 ys]|] eqn:E2; [|discriminate]. injection H as <- <-.
  apply forall_inv in A. destruct A as [A1 A2]. eapply IH; [eapply WF_step; eauto|eapply own_step; eauto|auto|eauto].
Qed.
Lemma own_check : forall w m y l v, own w m y l -> exists r, hstep w (OCheck m v) = Some (w, Answer r) /\ says (m_names y) l v r.
Proof.
  intros w m y l v [O1 O2 O3]. assert (S0 := ask_says (m_names y) l v). cbn [hstep]. rewrite O1.
  destruct (m_held y) as [a|t|k]; [| |destruct O3]; rewrite O2; destruct l as [|f l]; eauto.
Qed.

(** *** C117: setConstraints decides what is enforced: from then on, whatever is done
    with other managers and with lists, exactly those constraints are asked, in
    that order *)
Theorem C117_set : forall os1 w1 xs1 m y args w2 os2 w3 xs2 v, hrun w0 os1 = Some (w1, xs1) -> nth_error (mgrs w1) m = Some y ->
  hstep w1 (OSet m args) = Some (w2, Done) -> hrun w2 os2 = Some (w3, xs2) -> Forall (let_alone m) os2 ->
  (forall f, In f args -> f <> None) /\
  exists r, hstep w3 (OCheck m v) = Some (w3, Answer r) /\ says (m_names y) args v r.
Proof.
  intros os1 w1 xs1 m y args w2 os2 w3 xs2 v H1 Hm Hs H2 A. assert (W1 := WF_run _ _ _ _ WF_0 H1). assert (W2 := WF_step _ _ _ _ W1 Hs).
  cbn [hstep] in Hs. rewrite Hm in Hs. destruct (forallb _ args) eqn:F; [|discriminate]. injection Hs as <-. split.
  - intros f Hf ->. rewrite forallb_forall in F. specialize (F _ Hf). discriminate F.
  - set (w2 := mkW _ _ _ _) in *. assert (Lm : m < length (mgrs w1)) by (apply nth_error_Some; congruence).
    assert (O : own w2 m (mkMgr (m_names y) (HList (length (lists w1)))) args).
    { unfold w2. split; cbn [mgrs lists mine iters m_held items].
      - rewrite put_nth, Nat.eqb_refl. apply Nat.ltb_lt in Lm. now rewrite Lm.
      - rewrite app_nth2, Nat.sub_diag by lia. reflexivity.
      - rewrite app_length. destruct W1 as [V1 V2 V3]. simpl. split; [lia|]. split; [intros C; apply V2 in C; lia|].
        intros m' y' E N. rewrite put_nth in E. destruct (Nat.eqb_spec m' m); [congruence|]. simpl in E. apply nth_error_In in E. specialize (V3 y' E).
        intros C. rewrite C in V3. lia. }
    destruct (own_check w3 m _ args v (own_run _ _ _ _ _ _ _ W2 O A H2)) as (r & R1 & R2). eauto.
Qed.
(** *** C117: something that is not callable is refused with ValueError, all
    constraints staying as they were; nothing else is refused *)
Theorem C117_refused : forall w m y args, nth_error (mgrs w) m = Some y ->
  (In None args <-> hstep w (OSet m args) = Some (w, Failed ValueError)) /\
  (~ In None args -> exists w', hstep w (OSet m args) = Some (w', Done)).
Proof.
  intros w m y args Hm. change (list (option constr)) with (list item) in args. cbn [hstep]. rewrite Hm.
  assert (X : In None args <-> forallb (fun f : item => match f with Some _ => true | None => false end) args = false).
  { induction args as [|f args IH]; simpl; [split; [tauto|discriminate]|]. destruct f as [c|]; simpl; [|split; auto]. rewrite <- IH. split; [intros [C|C]; [discriminate|auto]|auto]. }
  destruct (forallb _ args); split; eauto.
  - rewrite X. split; discriminate.
  - rewrite X. split; auto.
  - intros N. elim N. now apply X.
Qed.
(** *** C117: a manager constructed with a single callable or a tuple asks exactly
    that, until other constraints are set *)
Theorem C117_made : forall os1 w1 xs1 names nb a l w2 os2 w3 xs2 v, hrun w0 os1 = Some (w1, xs1) ->
  ((exists f, a = AOne f /\ l = [f]) \/ a = ATuple l) ->
  hstep w1 (OMake names nb a) = Some (w2, Done) -> hrun w2 os2 = Some (w3, xs2) -> Forall (let_alone (length (mgrs w1))) os2 ->
  exists r, hstep w3 (OCheck (length (mgrs w1)) v) = Some (w3, Answer r) /\ says names l v r.
Proof.
  intros os1 w1 xs1 names nb a l w2 os2 w3 xs2 v H1 Ha Hs H2 A. assert (W1 := WF_run _ _ _ _ WF_0 H1). assert (W2 := WF_step _ _ _ _ W1 Hs).
  assert (O : exists y, m_names y = names /\ own w2 (length (mgrs w1)) y l).
  { destruct W1 as [V1 V2 V3]. cbn [hstep] in Hs. destruct Ha as [(f & -> & ->)| ->]; cbn [hold] in Hs; (destruct (nb =? length names); [|discriminate]); injection Hs as <-.
    - eexists. split; [|split; [cbn [mgrs]; rewrite nth_error_app2, Nat.sub_diag by lia; reflexivity| |]]; [reflexivity| |]; cbn [m_held items lists mine mgrs].
      + rewrite app_nth2, Nat.sub_diag by lia. reflexivity.
      + rewrite app_length. simpl. split; [lia|]. split; [intros C; apply V2 in C; lia|]. intros m' y' E N.
        destruct (Nat.lt_ge_cases m' (length (mgrs w1))); [|rewrite nth_error_app2 in E by auto; destruct (m' - length (mgrs w1)) as [|[|?]] eqn:Z; try discriminate; lia].
        rewrite nth_error_app1 in E by auto. apply nth_error_In in E. specialize (V3 y' E). intros C. rewrite C in V3. lia.
    - eexists. split; [|split; [cbn [mgrs]; rewrite nth_error_app2, Nat.sub_diag by lia; reflexivity| |]]; [reflexivity| |]; cbn [m_held items]; auto. }
  destruct O as (y & <- & O). apply (own_check w3 _ y l v). eapply own_run; eauto.
Qed.

(** ** constraints in a list of the caller's *)
Lemma mgr_run : forall os w w' xs m y, WF w -> nth_error (mgrs w) m = Some y -> Forall (fun o => forall args, o <> OSet m args) os ->
  hrun w os = Some (w', xs) ->
  nth_error (mgrs w') m = Some y /\ length (lists w) <= length (lists w') /\ (forall a, a < length (lists w) -> exists l, nth a (lists w') [] = nth a (lists w) [] ++ l) /\
  (forall k a, nth_error (mine w) k = Some a -> nth_error (mine w') k = Some a).
Proof.
  induction os as [|o os IH]; intros w w' xs m y W E A H; cbn [hrun] in H.
  - injection H as <- _. repeat split; auto. intros a _. exists []. now rewrite app_nil_r.
  - destruct (hstep w o) as [[w1 x]|] eqn:E1; [|discriminate]. destruct (hrun w1 os) as [[w2 ys]|] eqn:E2; [|discriminate]. injection H as <- <-.
    apply forall_inv in A. destruct A as [A1 A2]. destruct (step_grow w o w1 x W E1) as (G1 & G2 & G3 & G4 & G5 & _).
    destruct (IH w1 w2 ys m y (WF_step _ _ _ _ W E1) (G5 m y E A1) A2 E2) as (K1 & K2 & K3 & K4).
    repeat split; auto; [lia|]. intros a Ha. destruct (G3 a Ha) as [l1 L1]. destruct (K3 a ltac:(lia)) as [l2 L2]. exists (l1 ++ l2). rewrite L2, L1. now rewrite app_assoc.
Qed.
(** *** C117: a manager constructed with a list asks what the list has at the time:
    that includes what the caller has appended since *)
Theorem C117_list : forall os1 w1 xs1 names nb k w2 os2 w3 xs2 a v, hrun w0 os1 = Some (w1, xs1) ->
  hstep w1 (OMake names nb (AList k)) = Some (w2, Done) -> hrun w2 os2 = Some (w3, xs2) ->
  Forall (fun o => forall args, o <> OSet (length (mgrs w1)) args) os2 -> nth_error (mine w3) k = Some a ->
  exists r, hstep w3 (OCheck (length (mgrs w1)) v) = Some (w3, Answer r) /\ says names (nth a (lists w3) []) v r.
Proof.
  intros os1 w1 xs1 names nb k w2 os2 w3 xs2 a v H1 Hs H2 A Ha. assert (W1 := WF_run _ _ _ _ WF_0 H1). assert (W2 := WF_step _ _ _ _ W1 Hs).
  cbn [hstep hold] in Hs. destruct (nth_error (mine w1) k) as [b|] eqn:Eb; [|discriminate]. destruct (nb =? length names); [|discriminate]. injection Hs as <-.
  set (w2 := mkW _ _ _ _) in *.
  assert (M : nth_error (mgrs w2) (length (mgrs w1)) = Some (mkMgr names (HList b))).
  { unfold w2. cbn [mgrs]. rewrite nth_error_app2, Nat.sub_diag by lia. reflexivity. }
  destruct (mgr_run _ _ _ _ _ _ W2 M A H2) as (K1 & _ & _ & K4). rewrite (K4 k b Eb) in Ha. injection Ha as <-.
  assert (S0 := ask_says names (nth b (lists w3) []) v). cbn [hstep]. rewrite K1. cbn [m_held m_names items].
  destruct (nth b (lists w3) []) as [|f l]; eauto.
Qed.
(** *** C117: so one appended at any time, by the caller or by way of any manager
    with that list, is enforced from then on *)
Theorem C117_appended : forall os1 w1 xs1 m y a b c o w2 x os2 w3 xs2 v, hrun w0 os1 = Some (w1, xs1) ->
  nth_error (mgrs w1) m = Some y -> m_held y = HList a ->
  ((exists k, o = OAppend k (Some c) /\ nth_error (mine w1) k = Some b) \/ (exists m' y', o = OExtend m' (Some c) /\ nth_error (mgrs w1) m' = Some y' /\ m_held y' = HList b)) ->
  hstep w1 o = Some (w2, x) -> hrun w2 os2 = Some (w3, xs2) -> Forall (fun o => forall args, o <> OSet m args) os2 ->
  c (mk_params (m_names y) v) <> Ok true -> a = b ->
  exists r, hstep w3 (OCheck m v) = Some (w3, Answer r) /\ r <> Ok true.
Proof.
  intros os1 w1 xs1 m y a b c o w2 x os2 w3 xs2 v H1 Hm Hy Ho Hs H2 A Hc ->. assert (W1 := WF_run _ _ _ _ WF_0 H1). assert (W2 := WF_step _ _ _ _ W1 Hs).
  assert (Lb : b < length (lists w1)).
  { destruct W1 as [_ _ V3]. apply nth_error_In in Hm. specialize (V3 y Hm). now rewrite Hy in V3. }
  assert (X : nth_error (mgrs w2) m = Some y /\ In (Some c) (nth b (lists w2) []) /\ b < length (lists w2)).
  { destruct Ho as [(k & -> & Hk)|(m' & y' & -> & Hm' & Hy')]; cbn [hstep] in Hs; [rewrite Hk in Hs|rewrite Hm', Hy' in Hs]; injection Hs as <- <-; cbn [lists mgrs];
    (split; [auto|]; rewrite put_length; split; [|auto]); rewrite put_nthd, Nat.eqb_refl; apply Nat.ltb_lt in Lb; rewrite Lb; simpl; apply in_or_app; right; now left. }
  destruct X as (X1 & X2 & X3). destruct (mgr_run _ _ _ _ _ _ W2 X1 A H2) as (K1 & _ & K3 & _). destruct (K3 b X3) as [l L].
  destruct (ask_says (m_names y) (nth b (lists w3) []) v) as [S1 _].
  assert (I3 : In (Some c) (nth b (lists w3) [])) by (rewrite L; apply in_or_app; auto).
  assert (T : fst (ask (nth b (lists w3) []) (mk_params (m_names y) v)) <> Ok true).
  { intros C. apply S1 in C. rewrite Forall_forall in C. destruct (C _ I3) as (c' & [= <-] & C'). auto. }
  cbn [hstep]. rewrite K1, Hy. cbn [items]. destruct (nth b (lists w3) []) as [|f l']; [destruct I3|]. eauto.
Qed.

(** ** the default *)
Lemma default_step : forall w o w' x, WF w -> (forall m f, o <> OExtend m f) -> nth 0 (lists w) [] = [] -> hstep w o = Some (w', x) -> nth 0 (lists w') [] = [].
Proof.
  intros w o w' x W N E H. assert (L0 := wf_0 w W). destruct o as [l0|l0|names nb b|m0 args|k f|m0 f|m0 values]; cbn [hstep] in H.
  - injection H as <- <-. cbn [lists]. rewrite nth_app; auto.
  - injection H as <- <-. auto.
  - destruct (hold w b) as [[ls h]|] eqn:Eh; [|discriminate]. destruct (hold_WF w b ls h W Eh) as [[l1 ->] _].
    destruct (nb =? length names); injection H as <- <-; auto. cbn [lists]. rewrite nth_app; auto.
  - destruct (nth_error (mgrs w) m0); [|discriminate]. destruct (forallb _ args); injection H as <- <-; auto. cbn [lists]. rewrite nth_app; auto.
  - destruct (nth_error (mine w) k) as [a|] eqn:Ea; [|discriminate]. injection H as <- <-. cbn [lists]. rewrite put_nthd.
    apply nth_error_In in Ea. apply (wf_m w W) in Ea. destruct (Nat.eqb_spec 0 a); [lia|auto].
  - elim (N m0 f eq_refl).
  - destruct (nth_error (mgrs w) m0) as [z|]; [|discriminate]. destruct (m_held z) as [c|c|c]; [destruct (items _ _)|destruct (items _ _)|destruct (ask _ _)]; injection H as <- <-; auto.
Qed.
Lemma default_run : forall os w w' xs, WF w -> Forall (fun o => forall m f, o <> OExtend m f) os -> nth 0 (lists w) [] = [] -> hrun w os = Some (w', xs) -> nth 0 (lists w') [] = [].
Proof.
  induction os as [|o os IH]; intros w w' xs W A E H; cbn [hrun] in H; [now injection H as <- _|].
  destruct (hstep w o) as [[w1 x]|] eqn:E1; [|discriminate]. destruct (hrun w1 os) as [[w2 ys]|] eqn:E2; [|discriminate]. injection H as <- <-.
  apply forall_inv in A. destruct A as [A1 A2]. eapply (IH w1); eauto; [eapply WF_step; eauto|eapply default_step; eauto].
Qed.
(** *** C117: a manager constructed without constraints accepts everything, as long
    as nothing is appended to any manager's attribute *)
Theorem C117_default : forall os1 w1 xs1 names nb w2 os2 w3 xs2 v, hrun w0 os1 = Some (w1, xs1) ->
  hstep w1 (OMake names nb ADefault) = Some (w2, Done) -> hrun w2 os2 = Some (w3, xs2) ->
  Forall (fun o => forall m f, o <> OExtend m f) (os1 ++ os2) -> Forall (fun o => forall args, o <> OSet (length (mgrs w1)) args) os2 ->
  hstep w3 (OCheck (length (mgrs w1)) v) = Some (w3, Answer (Ok true)).
Proof.
  intros os1 w1 xs1 names nb w2 os2 w3 xs2 v H1 Hs H2 N A. assert (W1 := WF_run _ _ _ _ WF_0 H1). assert (W2 := WF_step _ _ _ _ W1 Hs).
  apply Forall_app in N. destruct N as [N1 N2]. assert (D1 := default_run _ _ _ _ WF_0 N1 eq_refl H1).
  assert (D2 : nth 0 (lists w2) [] = []) by (eapply (default_step w1 _ w2 _ W1); [|exact D1|exact Hs]; intros m f C; discriminate C).
  assert (D3 := default_run _ _ _ _ W2 N2 D2 H2).
  cbn [hstep hold] in Hs. destruct (nb =? length names); [|discriminate]. injection Hs as <-. set (w2 := mkW _ _ _ _) in *.
  assert (M : nth_error (mgrs w2) (length (mgrs w1)) = Some (mkMgr names (HList 0))).
  { unfold w2. cbn [mgrs]. rewrite nth_error_app2, Nat.sub_diag by lia. reflexivity. }
  destruct (mgr_run _ _ _ _ _ _ W2 M A H2) as (K1 & _). cbn [hstep]. rewrite K1. cbn [m_held items]. now rewrite D3.
Qed.
Definition nope : constr := fun _ => Ok false.
(** *** refuted: that appending to one manager's attribute leaves the others alone:
    all managers constructed without constraints have the same list *)
Theorem C117_default_refuted : ~ forall os w xs m m' f w' v r r' w1 w2, hrun w0 os = Some (w, xs) -> m <> m' ->
  hstep w (OExtend m f) = Some (w', Done) -> hstep w (OCheck m' v) = Some (w1, Answer r) -> hstep w' (OCheck m' v) = Some (w2, Answer r') -> r' = r.
Proof.
  intros H. specialize (H [OMake [] 0 ADefault; OMake [] 0 ADefault] _ _ 0 1 (Some nope) _ [] (Ok true) (Ok false) _ _ eq_refl ltac:(discriminate) eq_refl eq_refl eq_refl).
  discriminate H.
Qed.

(** ** iterators *)
Lemma empty_step : forall w o w' x k, k < length (iters w) -> nth k (iters w) [] = [] -> hstep w o = Some (w', x) -> nth k (iters w') [] = [] /\ k < length (iters w').
Proof.
  intros w o w' x k Hk E H. destruct o as [l0|l0|names nb b|m0 args|k0 f|m0 f|m0 values]; cbn [hstep] in H.
  - injection H as <- <-. auto.
  - injection H as <- <-. cbn [iters]. rewrite nth_app, app_length by auto. split; auto. lia.
  - destruct (hold w b) as [[ls h]|]; [|discriminate]. destruct (nb =? length names); injection H as <- <-; auto.
  - destruct (nth_error (mgrs w) m0); [|discriminate]. destruct (forallb _ args); injection H as <- <-; auto.
  - destruct (nth_error (mine w) k0) as [a|]; [|discriminate]. injection H as <- <-. auto.
  - destruct (nth_error (mgrs w) m0) as [z|]; [|discriminate]. destruct (m_held z); injection H as <- <-; auto.
  - destruct (nth_error (mgrs w) m0) as [z|]; [|discriminate]. destruct (m_held z) as [c|c|c]; [destruct (items _ _); injection H as <- <-; auto|destruct (items _ _); injection H as <- <-; auto|].
    destruct (ask (nth c (iters w) []) (mk_params (m_names z) values)) as [r l] eqn:Ea. injection H as <- <-. cbn [iters]. rewrite put_nthd, put_length.
    destruct (Nat.eqb_spec k c) as [->|]; auto. rewrite E in Ea. simpl in Ea. injection Ea as <- <-. destruct (c <? length (iters w)); auto.
Qed.
Lemma empty_run : forall os w w' xs k, k < length (iters w) -> nth k (iters w) [] = [] -> hrun w os = Some (w', xs) -> nth k (iters w') [] = [] /\ k < length (iters w').
Proof.
  induction os as [|o os IH]; intros w w' xs k Hk E H; cbn [hrun] in H; [now injection H as <- _|].
  destruct (hstep w o) as [[w1 x]|] eqn:E1; [|discriminate]. destruct (hrun w1 os) as [[w2 ys]|] eqn:E2; [|discriminate]. injection H as <- <-.
  destruct (empty_step _ _ _ _ _ Hk E E1). eapply IH; eauto.
Qed.
Lemma ask_true_left : forall l d, fst (ask l d) = Ok true -> snd (ask l d) = [].
Proof. induction l as [|[c|] l IH]; simpl; intros d H; auto; [|discriminate]. destruct (c d) as [[|]|]; try discriminate. auto. Qed.

(** *** C117: constraints given as an iterator are forgotten: once values have passed
    them, anything passes *)
Theorem C117_iterator : forall os1 w1 xs1 m y k v w2 os2 w3 xs2 v', hrun w0 os1 = Some (w1, xs1) ->
  nth_error (mgrs w1) m = Some y -> m_held y = HIter k -> hstep w1 (OCheck m v) = Some (w2, Answer (Ok true)) ->
  hrun w2 os2 = Some (w3, xs2) -> Forall (fun o => forall args, o <> OSet m args) os2 ->
  exists w4, hstep w3 (OCheck m v') = Some (w4, Answer (Ok true)).
Proof.
  intros os1 w1 xs1 m y k v w2 os2 w3 xs2 v' H1 Hm Hy Hs H2 A. assert (W1 := WF_run _ _ _ _ WF_0 H1). assert (W2 := WF_step _ _ _ _ W1 Hs).
  assert (Lk : k < length (iters w1)).
  { destruct W1 as [_ _ V3]. specialize (V3 y (nth_error_In _ _ Hm)). now rewrite Hy in V3. }
  cbn [hstep] in Hs. rewrite Hm, Hy in Hs. assert (T := ask_true_left (nth k (iters w1) []) (mk_params (m_names y) v)).
  destruct (ask _ _) as [r l] eqn:Ea in Hs. rewrite Ea in T. injection Hs as <- ->. simpl in T. specialize (T eq_refl). subst l.
  set (w2 := mkW _ _ _ _) in *.
  assert (E2 : nth k (iters w2) [] = []). { unfold w2. cbn [iters]. rewrite put_nthd, Nat.eqb_refl. apply Nat.ltb_lt in Lk. now rewrite Lk. }
  assert (L2 : k < length (iters w2)) by (unfold w2; cbn [iters]; now rewrite put_length).
  destruct (empty_run _ _ _ _ _ L2 E2 H2) as [E3 _]. destruct (mgr_run os2 w2 w3 xs2 m y W2 Hm A H2) as (K1 & _).
  cbn [hstep]. rewrite K1, Hy, E3. simpl. eauto.
Qed.
(** *** refuted: that asking twice about the same values gives the same answer *)
Theorem C117_again_refuted : ~ forall os w xs m v w1 r w2 r', hrun w0 os = Some (w, xs) ->
  hstep w (OCheck m v) = Some (w1, Answer r) -> hstep w1 (OCheck m v) = Some (w2, Answer r') -> r' = r.
Proof.
  intros H. specialize (H [OIter [Some nope]; OMake [] 0 (AIter 0)] _ _ 0 [] _ (Ok false) _ (Ok true) eq_refl eq_refl eq_refl). discriminate H.
Qed.
(** *** C117: ... which it does for every manager with a list or a tuple *)
Theorem C117_again : forall w m y v, nth_error (mgrs w) m = Some y -> (forall k, m_held y <> HIter k) ->
  exists r, hstep w (OCheck m v) = Some (w, Answer r).
Proof.
  intros w m y v Hm N. cbn [hstep]. rewrite Hm. destruct (m_held y) as [a|l|k]; [| |now elim (N k)]; destruct (items w _); eauto.
Qed.

(** *** C117: appending to a manager's attribute works for a list only: a tuple or an
    iterator has no append *)
Theorem C117_extend : forall w m y f, nth_error (mgrs w) m = Some y ->
  match m_held y with
  | HList a => exists w', hstep w (OExtend m f) = Some (w', Done) /\ mgrs w' = mgrs w /\ iters w' = iters w /\
      (a < length (lists w) -> nth a (lists w') [] = nth a (lists w) [] ++ [f]) /\ (forall b, b <> a -> nth b (lists w') [] = nth b (lists w) [])
  | _ => hstep w (OExtend m f) = Some (w, Failed AttributeError)
  end.
Proof.
  intros w m y f Hm. cbn [hstep]. rewrite Hm. destruct (m_held y) as [a|l|k]; auto. eexists. split; [reflexivity|]. cbn [lists mgrs iters].
  split; auto. split; auto. split.
  - intros L. rewrite put_nthd, Nat.eqb_refl. apply Nat.ltb_lt in L. now rewrite L.
  - intros b N. rewrite put_nthd. destruct (Nat.eqb_spec b a); [contradiction|reflexivity].
Qed.

(** *** C117: the constructor refuses nothing but a wrong number of bounds *)
Theorem C117_constructed : forall w names nb a w' x, hstep w (OMake names nb a) = Some (w', x) ->
  (x = Done <-> nb = length names) /\ (x <> Done -> x = Failed ValueError /\ w' = w).
Proof.
  intros w names nb a w' x H. cbn [hstep] in H. destruct (hold w a) as [[ls h]|]; [|discriminate].
  destruct (Nat.eqb_spec nb (length names)); injection H as <- <-; split; try tauto; split; congruence.
Qed.
(** *** refuted: that constraints which were not refused can be asked: the
    constructor takes what setConstraints refuses, and the first check of values
    raises TypeError *)
Theorem C117_callable_refuted : ~ forall names f w v w', hstep w0 (OMake names (length names) (AOne f)) = Some (w, Done) ->
  hstep w (OCheck 0 v) = Some (w', Answer (Raise TypeError)) -> exists c, f = Some c.
Proof. intros H. destruct (H [] None _ [] _ eq_refl eq_refl) as [c C]. discriminate C. Qed.

(** ** a case for all: two lists' worth of managers *)
Definition small : constr := fun d => match dict_get d "x" with Some v => Ok (fltb v (fofZ 3%Z)) | None => Raise KeyError end.
Definition positive : constr := fun d => match dict_get d "x" with Some v => Ok (fltb fzero v) | None => Raise KeyError end.
Definition ops1 : list op :=
  [OList [Some small]; OIter [Some small]; OMake ["x"%string] 1 (AList 0); OMake ["x"%string] 1 ADefault; OMake ["x"%string] 1 (AOne (Some small));
   OMake ["x"%string] 1 (AIter 0); OMake ["x"%string] 2 ADefault; OMake ["x"%string] 1 (ATuple [Some positive; None])].
Definition tell (x : out) : nat := match x with Done => 0 | Failed ValueError => 1 | Failed _ => 2 | Answer (Ok true) => 3 | Answer (Ok false) => 4 | Answer (Raise TypeError) => 5 | Answer (Raise _) => 6 end.
Definition told (os : list op) : option (list nat) := option_map (fun z => map tell (snd z)) (hrun w0 (ops1 ++ os)).
Example C117_case :
  told [OCheck 0 [fofZ 5%Z]; OCheck 0 [fofZ (-1)%Z]; OAppend 0 (Some positive); OCheck 0 [fofZ (-1)%Z]; OSet 0 [Some small; None]; OCheck 0 [fofZ (-1)%Z];
        OSet 0 [Some small]; OAppend 0 None; OCheck 0 [fofZ (-1)%Z]; OCheck 0 [fofZ 5%Z]] =
    Some [0; 0; 0; 0; 0; 0; 1; 0; 4; 3; 0; 4; 1; 4; 0; 0; 3; 4] /\
  told [OCheck 1 [fofZ 5%Z]; OCheck 2 [fofZ 5%Z]; OCheck 3 [fofZ 2%Z]; OCheck 3 [fofZ 5%Z]; OCheck 4 [fofZ 2%Z]; OCheck 4 [fofZ (-1)%Z]; OExtend 4 None] =
    Some [0; 0; 0; 0; 0; 0; 1; 0; 3; 4; 3; 3; 5; 4; 2] /\
  Forall (let_alone 0) [OAppend 0 None; OCheck 0 [fofZ 5%Z]] /\ told [OSet 9 []] = None.
Proof. split; [vm_compute; reflexivity|]. split; [vm_compute; reflexivity|]. split; [repeat constructor|reflexivity]. Qed.

Print Assumptions C117_set.
Print Assumptions C117_refused.
Print Assumptions C117_made.
Print Assumptions C117_list.
Print Assumptions C117_appended.
Print Assumptions C117_default.
Print Assumptions C117_default_refuted.
Print Assumptions C117_iterator.
Print Assumptions C117_again_refuted.
Print Assumptions C117_again.
Print Assumptions C117_constructed.
Print Assumptions C117_callable_refuted.
Print Assumptions C117_extend.
