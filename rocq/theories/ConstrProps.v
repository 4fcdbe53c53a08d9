(** * Properties C48, C49: ade/constraints.py *)
From Coq Require Import String List Bool Arith ZArith Reals Lra Lia.
From Flocq Require Import BinarySingleNaN.
From Verif Require Import Flt Py IndivModel ParamModel ParamProofs ConstrModel.
Import ListNotations.
Local Open Scope nat_scope.
#[local] Arguments fadd : simpl never.
#[local] Arguments fsub : simpl never.
#[local] Arguments fmul : simpl never.
#[local] Arguments fltb : simpl never.
#[local] Arguments fleb : simpl never.
#[local] Arguments fofZ : simpl never.

(** a specified pair: in relation table [rel] the parameter y depends on x *)
Definition spec_pair (rel : relations) (x y : string) (m b e : f64) : Prop :=
  exists ys, In (x, ys) rel /\ In (y, (m, b, e)) ys.

Lemma check_ys_spec : forall params x ys, check_ys params x ys = Ok true <->
  (forall y m b e, In (y, (m, b, e)) ys -> exists vy, dict_get params y = Some vy /\
     fltb e (fabs (fsub (fadd (fmul m x) b) vy)) = false).
Proof.
  intros params x. induction ys as [|[y [[m b] e]] ys IH]; simpl.
  - split; auto. intros _ y m b e [].
  - destruct (dict_get params y) as [vy|] eqn:E.
    + destruct (fltb e (fabs (fsub (fadd (fmul m x) b) vy))) eqn:L.
      * split; [discriminate|]. intros H. destruct (H y m b e (or_introl eq_refl)) as (w & E' & L'). congruence.
      * rewrite IH. split; intros H y' m' b' e'.
        -- intros [K|K]; [injection K as <- <- <- <-; eauto|eauto].
        -- intros K. apply H. auto.
    + split; [discriminate|]. intros H. destruct (H y m b e (or_introl eq_refl)) as (w & E' & L'). congruence.
Qed.
Lemma rel_check_spec : forall rel params, rel_check rel params = Ok true <->
  (forall x ys, In (x, ys) rel -> exists vx, dict_get params x = Some vx /\ check_ys params vx ys = Ok true).
Proof.
  induction rel as [|[x ys] rel IH]; intros params; simpl.
  - split; auto. intros _ x ys [].
  - destruct (dict_get params x) as [vx|] eqn:E.
    + destruct (check_ys params vx ys) as [[]|e] eqn:C.
      * rewrite IH. split; intros H x' ys'.
        -- intros [K|K]; [injection K as <- <-; eauto|eauto].
        -- intros K. apply H; auto.
      * split; [discriminate|]. intros H. destruct (H x ys (or_introl eq_refl)) as (w & E' & L'). congruence.
      * split; [discriminate|]. intros H. destruct (H x ys (or_introl eq_refl)) as (w & E' & L'). congruence.
    + split; [discriminate|]. intros H. destruct (H x ys (or_introl eq_refl)) as (w & E' & L'). congruence.
Qed.

(** C48: for dicts that have every mentioned parameter, and as long as no NaN
    turns up, the checker returns normally and accepts exactly when the computed
    deviation of every specified pair is at most its yMaxErr *)
Theorem C48_relations : forall rel params,
  (forall x ys, In (x, ys) rel -> dict_get params x <> None) ->
  (forall x y m b e, spec_pair rel x y m b e -> dict_get params y <> None) ->
  (forall x y m b e vx vy, spec_pair rel x y m b e -> dict_get params x = Some vx -> dict_get params y = Some vy ->
     isnan e = false /\ isnan (fsub (fadd (fmul m vx) b) vy) = false) ->
  exists r, rel_check rel params = Ok r /\
  (r = true <-> forall x y m b e vx vy, spec_pair rel x y m b e -> dict_get params x = Some vx -> dict_get params y = Some vy ->
     fleb (fabs (fsub (fadd (fmul m vx) b) vy)) e = true).
Proof.
  intros rel params HX HY HN.
  assert (T : exists r, rel_check rel params = Ok r).
  { clear HN. induction rel as [|[x ys] rel IH]; simpl; eauto.
    destruct (dict_get params x) as [vx|] eqn:E; [|exfalso; eapply HX; [left; reflexivity|auto]].
    assert (Ty : exists r, check_ys params vx ys = Ok r).
    { assert (HY' : forall y m b e, In (y, (m, b, e)) ys -> dict_get params y <> None).
      { intros y m b e K. apply (HY x y m b e). exists ys. simpl; auto. }
      clear - HY'. induction ys as [|[y [[m b] e]] ys IH]; simpl; eauto.
      destruct (dict_get params y) as [vy|] eqn:Ey; [|exfalso; eapply HY'; [left; reflexivity|auto]].
      destruct (fltb e _); eauto. apply IH. intros y' m' b' e' K. apply (HY' y' m' b' e'). right; auto. }
    destruct Ty as [[] Ey]; rewrite Ey; eauto. apply IH.
    - intros x' ys' K. apply (HX x' ys'). right; auto.
    - intros x' y m b e (ys' & K1 & K2). apply (HY x' y m b e). exists ys'. simpl; auto. }
  destruct T as [r Hr]. exists r. split; auto. split.
  - intros ->. intros x y m b e vx vy S Ex Ey. destruct S as (ys & K1 & K2).
    destruct (HN x y m b e vx vy) as [N1 N2]; auto. { exists ys; auto. }
    destruct (proj1 (rel_check_spec rel params) Hr x ys K1) as (vx' & E1 & E2).
    assert (vx' = vx) by congruence. subst. destruct (proj1 (check_ys_spec params vx ys) E2 y m b e K2) as (vy' & E3 & E4).
    assert (vy' = vy) by congruence. subst. rewrite fltb_negb in E4; auto.
    + now apply negb_false_iff in E4.
    + now destruct (fsub (fadd (fmul m vx) b) vy).
  - intros H. destruct r; auto. exfalso.
    assert (K : rel_check rel params = Ok true); [|congruence]. apply rel_check_spec. intros x ys K1.
    destruct (dict_get params x) as [vx|] eqn:Ex; [|exfalso; eapply HX; eauto]. exists vx. split; auto.
    apply check_ys_spec. intros y m b e K2. assert (S : spec_pair rel x y m b e) by (exists ys; auto).
    destruct (dict_get params y) as [vy|] eqn:Ey; [|exfalso; eapply HY; eauto]. exists vy. split; auto.
    specialize (H x y m b e vx vy S Ex Ey). destruct (HN x y m b e vx vy S Ex Ey) as [N1 N2].
    rewrite fltb_negb; auto. { now rewrite H. } now destruct (fsub (fadd (fmul m vx) b) vy).
Qed.
(** ... a NaN is accepted *)
Theorem C48_nan_refuted : exists rel params, rel_check rel params = Ok true /\
  exists x y m b e vx vy, spec_pair rel x y m b e /\ dict_get params x = Some vx /\ dict_get params y = Some vy /\
  fleb (fabs (fsub (fadd (fmul m vx) b) vy)) e = false.
Proof.
  exists [("x", [("y", (fone, fzero, fone))])]%string, [("x", fnan); ("y", fone)]%string. split; [reflexivity|].
  exists "x"%string, "y"%string, fone, fzero, fone, fnan, fone. repeat split.
  eexists. split; [left; reflexivity|left; reflexivity].
Qed.
(** ... and a parameter that is missing (e.g. because it was made a known
    constant) raises KeyError instead of being ignored *)
Theorem C48_missing_raises : forall rel params x ys,
  In (x, ys) rel -> dict_get params x = None -> rel_check rel params <> Ok true.
Proof. intros rel params x ys H E C. destruct (proj1 (rel_check_spec rel params) C x ys H) as (v & E' & _). congruence. Qed.
Definition ex_rel : relations := [("x", [("y", (fofZ 2, fofZ 1, fone)); ("z", (fofZ (-1), fzero, fzero))])]%string.
Example C48_example :
  rel_check ex_rel [("x", fofZ 3); ("y", fofZ 8); ("z", fofZ (-3))]%string = Ok true /\
  rel_check ex_rel [("x", fofZ 3); ("y", fofZ 9); ("z", fofZ (-3))]%string = Ok false /\
  rel_check ex_rel [("x", fofZ 3); ("y", fofZ 8)]%string = Raise KeyError.
Proof. vm_compute. auto. Qed.
Print Assumptions C48_relations.
Print Assumptions C48_nan_refuted.
Print Assumptions C48_missing_raises.

(** ** C49 *)
Section C49.
Variable pow10 : f64 -> f64.

Lemma has_set : forall d k v n, has (dict_set d k v) n = String.eqb n k || has d n.
Proof. intros. unfold has. rewrite dict_get_set. now destruct (String.eqb n k). Qed.

(** a dict holding, for some of the names, the transformed values *)
Definition good (val : string -> option f64) (new : pdict) : Prop := forall n v, dict_get new n = Some v -> val n = Some v.

Lemma fill_good : forall g params names new (val : string -> option f64),
  (forall n v, In n names -> dict_get params n = Some v -> val n = Some (g v)) ->
  good val new -> good val (fill g params names new).
Proof.
  intros g params names. induction names as [|a names IH]; simpl; intros new val H G; auto.
  apply IH; [intros; apply H; auto|]. destruct (has new a); auto. destruct (dict_get params a) as [v|] eqn:E; auto.
  intros n w. rewrite dict_get_set. destruct (String.eqb_spec n a) as [->|N]; [|apply G].
  intros [= <-]. apply H; auto.
Qed.
Lemma fill_keeps : forall g params names new n, has new n = true -> has (fill g params names new) n = true.
Proof.
  intros g params names. induction names as [|a names IH]; simpl; intros new n H; auto. apply IH.
  destruct (has new a); auto. destruct (dict_get params a); auto. rewrite has_set, H. apply orb_true_r.
Qed.
Lemma fill_has : forall g params names new, subset names params = true -> forall n, In n names -> has (fill g params names new) n = true.
Proof.
  intros g params names. induction names as [|a names IH]; simpl; intros new S n H; [tauto|].
  apply andb_true_iff in S. destruct S as [S1 S2]. destruct H as [->|H]; [|auto].
  apply fill_keeps. destruct (has new n) eqn:E; auto. unfold has in S1. destruct (dict_get params n); [|discriminate].
  rewrite has_set, String.eqb_refl. reflexivity.
Qed.

Definition names_of (m : meth) : list string := m_lin m ++ m_log m.
(** every method declares a parameter the same way: [islog] says how *)
Definition consistent (islog : string -> bool) (C : constraints) : Prop :=
  forall m n, In m (cList C) -> (In n (m_lin m) -> islog n = false) /\ (In n (m_log m) -> islog n = true).
(** the value a method should see *)
Definition transformed (islog : string -> bool) (params : pdict) (n : string) : option f64 :=
  option_map (fun v => if islog n then pow10 v else v) (dict_get params n).
(** the dict with just the method's parameters, transformed as declared *)
Definition own_dict (m : meth) (params : pdict) : pdict :=
  fold_right (fun n d => match dict_get params n with Some v => dict_set d n v | None => d end)
    (fold_right (fun n d => match dict_get params n with Some v => dict_set d n (pow10 v) | None => d end) [] (m_log m))
    (m_lin m).
Definition all_present (m : meth) (params : pdict) : Prop := forall n, In n (names_of m) -> dict_get params n <> None.
(** a method that only looks at the parameters it was registered for *)
Definition looks_at_own (m : meth) : Prop := forall d d',
  (forall n, In n (names_of m) -> dict_get d n = dict_get d' n) -> m_func m d = m_func m d'.

Lemma wrapper_spec : forall islog m params new,
  (forall n, (In n (m_lin m) -> islog n = false) /\ (In n (m_log m) -> islog n = true)) ->
  good (transformed islog params) new ->
  let '(new', r) := wrapper pow10 m params new in
  good (transformed islog params) new' /\
  ((all_present m params -> r = m_func m new' /\ (forall n, In n (names_of m) -> has new' n = true)) /\
   (~ all_present m params -> r = Ok true)).
Proof.
  intros islog m params new Hc G.
  assert (S : forall l, subset l params = true <-> forall n, In n l -> dict_get params n <> None).
  { intros l. unfold subset. rewrite forallb_forall. unfold has. split; intros H n K; specialize (H n K);
      destruct (dict_get params n); congruence. }
  assert (L1 : subset (m_lin m) params = true -> subset (m_log m) params = true -> all_present m params).
  { intros A B n K. unfold names_of in K. rewrite in_app_iff in K. destruct K as [K|K]; [apply (proj1 (S _) A n K)|apply (proj1 (S _) B n K)]. }
  assert (G1 : good (transformed islog params) (fill (fun v => v) params (m_lin m) new)).
  { apply fill_good; auto. intros n v K E. unfold transformed. rewrite E. cbn. now rewrite (proj1 (Hc n) K). }
  assert (G2 : forall nw, good (transformed islog params) nw -> good (transformed islog params) (fill pow10 params (m_log m) nw)).
  { intros nw Gn. apply fill_good; auto. intros n v K E. unfold transformed. rewrite E. cbn. now rewrite (proj2 (Hc n) K). }
  assert (Rest : forall nw, good (transformed islog params) nw -> subset (m_lin m) params = true -> (forall n, In n (m_lin m) -> has nw n = true) ->
    let '(new', r) := match m_log m with
      | [] => (nw, m_func m nw)
      | _ => if subset (m_log m) params then let nw := fill pow10 params (m_log m) nw in (nw, m_func m nw) else (nw, Ok true) end in
    good (transformed islog params) new' /\
    ((all_present m params -> r = m_func m new' /\ (forall n, In n (names_of m) -> has new' n = true)) /\
     (~ all_present m params -> r = Ok true))).
  { intros nw Gn Sl Hl. destruct (m_log m) as [|a l] eqn:El.
    - split; auto. split.
      + intros _. split; auto. intros n K. apply Hl. unfold names_of in K. rewrite El, app_nil_r in K. auto.
      + intros N. contradiction N. apply L1; auto.
    - rewrite <- El. destruct (subset (m_log m) params) eqn:Sg; [|split; auto; split; auto].
      + rewrite <- El in *. split; [auto|]. split.
        * intros _. split; auto. intros n K. unfold names_of in K. rewrite in_app_iff in K. destruct K as [K|K].
          -- apply fill_keeps. auto.
          -- apply fill_has; auto.
        * intros N. contradiction N. auto.
      + intros A. exfalso. rewrite El in *. assert (subset (a :: l) params = true); [|congruence]. apply S. intros n K. apply A.
        unfold names_of. rewrite in_app_iff, El. auto. }
  unfold wrapper. destruct (m_lin m) as [|a l] eqn:El.
  - apply Rest; auto.
  - rewrite <- El in *. destruct (subset (m_lin m) params) eqn:Sl.
    + apply Rest; auto. intros n K. apply fill_has; auto.
    + split; auto. split; auto. intros A. exfalso. assert (subset (m_lin m) params = true); [|congruence]. apply S.
      intros n K. apply A. unfold names_of. rewrite in_app_iff. auto.
Qed.

Lemma own_dict_get : forall islog m params n,
  (forall n, (In n (m_lin m) -> islog n = false) /\ (In n (m_log m) -> islog n = true)) ->
  In n (names_of m) -> dict_get (own_dict m params) n = transformed islog params n.
Proof.
  intros islog m params n Hc K.
  assert (A : forall (g : f64 -> f64) l d, dict_get (fold_right (fun n d => match dict_get params n with Some v => dict_set d n (g v) | None => d end) d l) n
     = if in_dec string_dec n l then match dict_get params n with Some v => Some (g v) | None => dict_get d n end else dict_get d n).
  { intros g l d. induction l as [|a l IH]; [reflexivity|]. cbn [fold_right].
    destruct (dict_get params a) as [v|] eqn:E.
    - rewrite dict_get_set. destruct (String.eqb_spec n a) as [->|N].
      + rewrite E. destruct (in_dec string_dec a (a :: l)) as [_|C]; [reflexivity|]. contradiction C. now left.
      + rewrite IH. destruct (in_dec string_dec n l), (in_dec string_dec n (a :: l)) as [J|J]; simpl in *; intuition congruence.
    - rewrite IH. destruct (in_dec string_dec n l), (in_dec string_dec n (a :: l)) as [J|J]; simpl in *; intuition (try congruence).
      subst. now rewrite E. }
  unfold own_dict. rewrite (A (fun v => v)), (A pow10). unfold transformed.
  unfold names_of in K. rewrite in_app_iff in K. destruct (Hc n) as [H1 H2].
  destruct (in_dec string_dec n (m_lin m)) as [I1|I1].
  - rewrite (H1 I1). destruct (dict_get params n); cbn; auto. destruct (in_dec string_dec n (m_log m)); reflexivity.
  - destruct (in_dec string_dec n (m_log m)) as [I2|I2]; [|tauto]. rewrite (H2 I2). destruct (dict_get params n); reflexivity.
Qed.

Definition gives_own (islog : string -> bool) (params : pdict) (m : meth) (d : pdict) : Prop :=
  forall n, In n (names_of m) -> dict_get d n = transformed islog params n.

Lemma check_meths_spec : forall islog ms params new,
  (forall m n, In m ms -> (In n (m_lin m) -> islog n = false) /\ (In n (m_log m) -> islog n = true)) ->
  (forall m, In m ms -> looks_at_own m) ->
  good (transformed islog params) new ->
  (check_meths pow10 ms params new = Ok true <->
   forall m, In m ms -> all_present m params -> m_func m (own_dict m params) = Ok true).
Proof.
  intros islog ms params. induction ms as [|m ms IH]; intros new Hc Hl G; cbn [check_meths].
  - split; auto. intros _ m [].
  - assert (W := wrapper_spec islog m params new (fun n => Hc m n (or_introl eq_refl)) G).
    destruct (wrapper pow10 m params new) as [new' r]. destruct W as (G' & W1 & W2).
    assert (Dec : all_present m params \/ ~ all_present m params).
    { unfold all_present. destruct (forallb (has params) (names_of m)) eqn:F.
      - left. rewrite forallb_forall in F. intros n K. specialize (F n K). unfold has in F. destruct (dict_get params n); congruence.
      - right. intros A. assert (forallb (has params) (names_of m) = true); [|congruence]. apply forallb_forall. intros n K.
        specialize (A n K). unfold has. destruct (dict_get params n); congruence. }
    assert (R : all_present m params -> r = m_func m (own_dict m params)).
    { intros A. destruct (W1 A) as [-> Hh]. apply (Hl m (or_introl eq_refl)). intros n K.
      rewrite (own_dict_get islog); auto; [|intros; apply Hc; now left]. specialize (Hh n K). unfold has in Hh.
      destruct (dict_get new' n) as [v|] eqn:E; [|discriminate]. symmetry. now apply G'. }
    destruct r as [[]|e].
    + rewrite IH; auto; try (intros; apply Hc; now right); try (intros; apply Hl; now right).
      split; intros H m' K A.
      * destruct K as [<-|K]; [symmetry; auto|auto].
      * apply H; auto. now right.
    + split; [discriminate|]. intros H. exfalso. destruct Dec as [A|A].
      * specialize (H m (or_introl eq_refl) A). specialize (R A). congruence.
      * specialize (W2 A). congruence.
    + split; [discriminate|]. intros H. exfalso. destruct Dec as [A|A].
      * specialize (H m (or_introl eq_refl) A). specialize (R A). congruence.
      * specialize (W2 A). congruence.
Qed.

(** C49: with consistent declarations and methods that look only at their own
    parameters, values pass exactly when every registered method all of whose
    parameters are present accepts the dict of its transformed parameters, and
    every appended function accepts the raw parameters *)
Theorem C49_checked : forall islog names C values, consistent islog C ->
  (forall m, In m (cList C) -> looks_at_own m) ->
  (c_passes pow10 names C values = Ok true <->
   (forall m, In m (cList C) -> all_present m (mk_params names values) -> m_func m (own_dict m (mk_params names values)) = Ok true) /\
   (forall f, In f (fList C) -> f (mk_params names values) = Ok true)).
Proof.
  intros islog names C values Hc Hl. set (params := mk_params names values).
  assert (H : c_check pow10 C params = Ok true <->
   (forall m, In m (cList C) -> all_present m params -> m_func m (own_dict m params) = Ok true) /\
   (forall f, In f (fList C) -> f params = Ok true)).
  { unfold c_check. rewrite <- (check_meths_spec islog (cList C) params []); auto; [|intros n v; discriminate].
    assert (F : (forall f, In f (fList C) -> f params = Ok true) <-> check_all (fList C) params = Ok true).
    { rewrite check_all_true, Forall_forall. tauto. }
    rewrite F. destruct (check_meths pow10 (cList C) params []) as [[]|e]; split; intros X; try discriminate; try tauto; destruct X; discriminate. }
  unfold c_passes. fold params. destruct (cList C) as [|m l] eqn:E1; [destruct (fList C) as [|f l] eqn:E2|]; try exact H.
  split; auto. intros _. split; intros ? [].
Qed.
(** the transformed dict: exactly the declared parameters' values, 10**x for
    log-space ones *)
Theorem C49_own_dict : forall islog C m params n, consistent islog C -> In m (cList C) -> In n (names_of m) ->
  dict_get (own_dict m params) n =
  match dict_get params n with None => None | Some v => Some (if islog n then pow10 v else v) end.
Proof.
  intros islog C m params n Hc Hm Hn. rewrite (own_dict_get islog m params n (fun n => Hc m n Hm) Hn).
  unfold transformed. now destruct (dict_get params n).
Qed.
(** appended functions count as further checks *)
Theorem C49_append : forall names C f values, cList C <> [] \/ fList C <> [] ->
  (c_passes pow10 names (c_append C f) values = Ok true <->
   c_passes pow10 names C values = Ok true /\ f (mk_params names values) = Ok true).
Proof.
  intros names C f values N. set (d := mk_params names values).
  assert (H : c_check pow10 (c_append C f) d = Ok true <-> c_check pow10 C d = Ok true /\ f d = Ok true).
  { unfold c_check, c_append. cbn [cList fList]. destruct (check_meths pow10 (cList C) d []) as [[]|e]; try (split; [discriminate|intros []; discriminate]).
    rewrite !check_all_true, Forall_app. split; intros [A B]; split; auto.
    now inversion B. }
  unfold c_passes. cbn [c_append cList fList]. fold d.
  destruct (cList C) eqn:E1, (fList C) eqn:E2; cbn [app]; try exact H. destruct N; congruence.
Qed.
End C49.

(** without consistency a method is handed an untransformed value: x is linear
    for the first method and log-space for the second, which is given 2 instead
    of 10**2 *)
Definition ex_pow (x : f64) : f64 := if feqb x (fofZ 2) then fofZ 100 else fone.
Definition below (n : string) (z : Z) : constr := fun d => match dict_get d n with Some v => Ok (fltb v (fofZ z)) | None => Raise KeyError end.
Definition ex_incons : constraints := mkC [mkMeth (below "x" 5) ["x"] []; mkMeth (below "x" 50) [] ["x"]]%string [].
Theorem C49_inconsistent_refuted : exists C names values m,
  c_passes ex_pow names C values = Ok true /\ In m (cList C) /\ all_present m (mk_params names values) /\ looks_at_own m /\
  m_func m (own_dict ex_pow m (mk_params names values)) = Ok false.
Proof.
  exists ex_incons, ["x"]%string, [fofZ 2], (mkMeth (below "x" 50) [] ["x"])%string.
  split; [vm_compute; reflexivity|]. split; [simpl; auto|]. split; [intros n [<-|[]]; discriminate|].
  split; [|vm_compute; reflexivity]. intros d d' H. cbn. unfold below. rewrite (H "x"%string); [reflexivity|simpl; auto].
Qed.
(** a method also sees parameters only another method declared *)
Theorem C49_foreign_parameters_refuted : exists C names values m islog,
  consistent islog C /\ In m (cList C) /\ c_passes ex_pow names C values = Raise UserError /\
  m_func m (own_dict ex_pow m (mk_params names values)) = Ok true /\
  (forall m', In m' (cList C) -> m' <> m -> m_func m' (own_dict ex_pow m' (mk_params names values)) = Ok true).
Proof.
  set (f := fun d : pdict => match dict_get d "x" with Some _ => Raise UserError | None => Ok true end).
  exists (mkC [mkMeth (below "x" 5) ["x"] []; mkMeth f ["y"] []]%string []), ["x"; "y"]%string, [fofZ 2; fofZ 2], (mkMeth f ["y"] [])%string, (fun _ => false).
  split. { intros m n [<-|[<-|[]]]; simpl; intuition. }
  split; [simpl; auto|]. split; [vm_compute; reflexivity|]. split; [vm_compute; reflexivity|].
  intros m' [<-|[<-|[]]] N; [vm_compute; reflexivity|congruence].
Qed.
(** the checkers collected in a list all call the last method: a violation of
    the first one goes unnoticed *)
Theorem C49_collected : forall pow10 C m l params, rev (cList C) = m :: l ->
  c_check_collected pow10 C params = c_check pow10 (mkC (repeat (mkMeth (last (fList C) (m_func m)) (m_lin m) (m_log m)) (length (cList C))) (fList C)) params.
Proof.
  intros pow10 C m l params E. unfold c_check_collected, c_check, collected. rewrite E. cbn [cList fList].
  assert (L : match rev (fList C) with f :: _ => f | [] => m_func m end = last (fList C) (m_func m)).
  { destruct (fList C) as [|f fs] using rev_ind; [reflexivity|]. rewrite rev_app_distr, last_last. reflexivity. }
  rewrite L. set (m' := mkMeth _ _ _).
  assert (R : forall X (l : list X), map (fun _ => m') l = repeat m' (length l)) by (intros X t; induction t as [|x t IH]; simpl; congruence).
  rewrite R. reflexivity.
Qed.
(** setConstraints( *constraints ) with methods only: once all parameters of the last method
    were there, the verdict on every later combination is the one on the first *)
Theorem C49_stale_refuted : forall pow10 C m l p ps, rev (cList C) = m :: l -> fList C = [] ->
  Forall (fun q => forall n, In n (m_lin m ++ m_log m) -> dict_get q n <> None) (p :: ps) ->
  checks_collected pow10 C (p :: ps) [] = repeat (c_check_collected pow10 C p) (S (length ps)).
Proof.
  intros pow10 C m l p ps E F A.
  assert (SUB : forall q ns, (forall n, In n ns -> dict_get q n <> None) -> subset ns q = true).
  { intros q ns H. unfold subset. rewrite forallb_forall. unfold has. intros n K. specialize (H n K). destruct (dict_get q n); congruence. }
  assert (FULL : forall g q ns new, (forall n, In n ns -> has new n = true) -> fill g q ns new = new).
  { intros g q ns. induction ns as [|a ns IH]; intros new H; [reflexivity|]. unfold fill in *. cbn [fold_left]. rewrite (H a (or_introl eq_refl)). apply IH. intros; apply H; now right. }
  set (m' := mkMeth (m_func m) (m_lin m) (m_log m)).
  assert (COL : collected C = repeat m' (length (cList C))).
  { unfold collected. rewrite E, F. cbn [rev]. generalize (cList C). intros t. induction t as [|x t IH]; [reflexivity|]. cbn [map length repeat]. now rewrite IH. }
  set (d := fill pow10 p (m_log m) (fill (fun v => v) p (m_lin m) [])).
  inversion A as [|p0 ps0 Ap Aps]; subst p0 ps0. clear A.
  assert (W : forall q new, (forall n, In n (m_lin m ++ m_log m) -> dict_get q n <> None) ->
     wrapper pow10 m' q new = (fill pow10 q (m_log m) (fill (fun v => v) q (m_lin m) new), m_func m (fill pow10 q (m_log m) (fill (fun v => v) q (m_lin m) new)))).
  { intros q new H. unfold wrapper, m'. cbn [m_lin m_log m_func].
    assert (S1 : subset (m_lin m) q = true) by (apply SUB; intros; apply H, in_or_app; now left).
    assert (S2 : subset (m_log m) q = true) by (apply SUB; intros; apply H, in_or_app; now right).
    destruct (m_lin m), (m_log m); rewrite ?S1, ?S2; reflexivity. }
  assert (Hd : forall n, In n (m_lin m ++ m_log m) -> has d n = true).
  { intros n K. apply in_app_or in K. destruct K as [K|K].
    - apply fill_keeps, fill_has; [apply SUB; intros; apply Ap, in_or_app; now left|assumption].
    - apply fill_has; [apply SUB; intros; apply Ap, in_or_app; now right|assumption]. }
  assert (W2 : forall q, (forall n, In n (m_lin m ++ m_log m) -> dict_get q n <> None) -> wrapper pow10 m' q d = (d, m_func m d)).
  { intros q H. rewrite W by assumption. rewrite (FULL (fun v => v)) by (intros; apply Hd, in_or_app; now left).
    rewrite FULL by (intros; apply Hd, in_or_app; now right). reflexivity. }
  assert (R2 : forall q k, (forall n, In n (m_lin m ++ m_log m) -> dict_get q n <> None) -> k <> O -> check_again pow10 (repeat m' k) q d = (d, m_func m d)).
  { intros q k H. induction k as [|k IH]; [congruence|]. intros _. cbn [repeat check_again]. rewrite W2 by assumption.
    destruct (m_func m d) as [[]|e] eqn:Em; try reflexivity. destruct k as [|k]; [reflexivity|]. apply IH. discriminate. }
  assert (NZ : length (cList C) <> O).
  { intros Z. apply length_zero_iff_nil in Z. rewrite Z in E. discriminate E. }
  assert (R1 : check_again pow10 (repeat m' (length (cList C))) p [] = (d, m_func m d)).
  { destruct (length (cList C)) as [|k]; [congruence|]. cbn [repeat check_again]. rewrite W by assumption. fold d.
    destruct (m_func m d) as [[]|e] eqn:Em; try reflexivity. destruct k as [|k]; [reflexivity|]. rewrite R2; [reflexivity|assumption|discriminate]. }
  assert (CC : c_check_collected pow10 C p = m_func m d).
  { unfold c_check_collected. rewrite COL, F.
    assert (G : forall ms new, check_meths pow10 ms p new = snd (check_again pow10 ms p new)).
    { intros ms. induction ms as [|x ms IH]; intros new; [reflexivity|]. cbn [check_meths check_again]. destruct (wrapper pow10 x p new) as [nw [[]|e]]; auto. }
    rewrite G, R1. cbn [snd check_all]. destruct (m_func m d) as [[]|e]; reflexivity. }
  rewrite CC. cbn [checks_collected repeat]. rewrite COL, R1, F. cbn [check_all]. f_equal; [destruct (m_func m d) as [[]|e]; reflexivity|].
  clear Ap. induction Aps as [|q qs Hq Hqs IH]; [reflexivity|]. cbn [checks_collected length repeat]. rewrite COL, R2 by assumption. rewrite F. cbn [check_all].
  f_equal; [destruct (m_func m d) as [[]|e]; reflexivity|]. exact IH.
Qed.
Theorem C49_collected_refuted : exists C params, c_check ex_pow C params = Ok false /\ c_check_collected ex_pow C params = Ok true.
Proof.
  exists (mkC [mkMeth (below "x" 1) ["x"] []; mkMeth (below "y" 5) ["y"] []]%string []), [("x", fofZ 2); ("y", fofZ 2)]%string.
  vm_compute. auto.
Qed.
Example C49_stale_ex : let C := mkC [mkMeth (below "x" 5) ["x"] []]%string [] in
  checks_collected ex_pow C [[("x", fofZ 4)]; [("x", fofZ 9)]]%string [] = [Ok true; Ok true] /\ c_check ex_pow C [("x", fofZ 9)]%string = Ok false.
Proof. vm_compute. auto. Qed.
Definition ex_C : constraints := mkC [mkMeth (below "x" 5) ["x"] []; mkMeth (below "r" 500) ["x"] ["r"]; mkMeth (below "q" 0) ["q"] []]%string [below "r" 3].
Example C49_example : consistent (String.eqb "r") ex_C /\ (forall m, In m (cList ex_C) -> looks_at_own m) /\
  c_passes ex_pow ["x"; "r"]%string ex_C [fofZ 4; fofZ 2] = Ok true /\
  c_passes ex_pow ["x"; "r"]%string ex_C [fofZ 5; fofZ 2] = Ok false /\
  c_passes ex_pow ["x"; "r"]%string ex_C [fofZ 4; fofZ 3] = Ok false.
Proof.
  split. { intros m n [<-|[<-|[<-|[]]]]; simpl; split; intros H; intuition; subst; reflexivity. }
  split.
  { intros m [<-|[<-|[<-|[]]]] d d' H; cbn; unfold below; (rewrite (H "x"%string) by (simpl; auto)) || (rewrite (H "r"%string) by (simpl; auto)) || (rewrite (H "q"%string) by (simpl; auto)); reflexivity. }
  vm_compute. auto.
Qed.
Print Assumptions C49_checked.
Print Assumptions C49_own_dict.
Print Assumptions C49_append.
Print Assumptions C49_inconsistent_refuted.
Print Assumptions C49_foreign_parameters_refuted.
Print Assumptions C49_collected.
Print Assumptions C49_stale_refuted.
Print Assumptions C49_collected_refuted.
