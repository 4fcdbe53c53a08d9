(** * Individuals as mappings (C87) and the arrays behind them (C88). *)
From Coq Require Import Bool Arith ZArith String List Lia.
From Verif Require Import Flt Py ParamModel MapModel.
Import ListNotations.
Local Open Scope nat_scope.

(** ** Lemmas *)
Lemma pos_spec n z k : pos n z = Ok k <-> k < n /\ (z = Z.of_nat k \/ z = (Z.of_nat k - Z.of_nat n)%Z).
Proof.
  unfold pos. destruct (Z.leb_spec 0 z); [destruct (Z.ltb_spec z (Z.of_nat n))|destruct (Z.leb_spec (- Z.of_nat n) z)]; split; intros H'.
  all: try discriminate.
  all: try (injection H' as <-; lia).
  all: try (f_equal; lia).
  all: lia.
Qed.
Lemma item_nat {A} (l : list A) k v : item l (Z.of_nat k) = Ok v <-> nth_error l k = Some v.
Proof.
  unfold item, pos. replace (Z.leb 0 (Z.of_nat k)) with true by (symmetry; apply Z.leb_le; lia).
  destruct (Z.ltb_spec (Z.of_nat k) (Z.of_nat (length l))).
  - cbn. rewrite Nat2Z.id. destruct (nth_error l k); split; intros H'; congruence.
  - cbn. split; [discriminate|]. intros E. assert (k < length l) by (apply nth_error_Some; congruence). lia.
Qed.
Lemma item_pos {A} (l : list A) z k : pos (length l) z = Ok k -> item l z = item l (Z.of_nat k).
Proof.
  intros E. unfold item at 1. rewrite E. cbn. apply pos_spec in E. destruct E as [L _].
  destruct (nth_error l k) eqn:N; [symmetry; apply item_nat; exact N|]. apply nth_error_None in N. lia.
Qed.
Lemma index_some {A} (p : A -> bool) l : forall i, index_of p l = Some i ->
  exists x, nth_error l i = Some x /\ p x = true /\ forall j y, j < i -> nth_error l j = Some y -> p y = false.
Proof.
  induction l as [|a l IH]; intros i E; [discriminate|]. cbn in E. destruct (p a) eqn:P.
  - injection E as <-. exists a. repeat split; auto. intros j y L. lia.
  - destruct (index_of p l) as [j|] eqn:J; [|discriminate]. injection E as <-. destruct (IH j eq_refl) as (x & X & PX & F).
    exists x. repeat split; auto. intros [|j'] y L N; [cbn in N; congruence|]. apply (F j' y); auto. lia.
Qed.
Lemma index_none {A} (p : A -> bool) l : index_of p l = None <-> forall x, In x l -> p x = false.
Proof.
  induction l as [|a l IH]; [split; [intros _ x []|auto]|]. cbn. destruct (p a) eqn:P.
  - split; [discriminate|]. intros H. rewrite (H a (or_introl eq_refl)) in P. discriminate.
  - destruct (index_of p l) eqn:E; cbn.
    + split; [discriminate|]. intros H. assert (X : Some n = None) by (apply IH; intros x I; apply H; right; exact I). discriminate.
    + split; [|auto]. intros _ x [<-|I]; [exact P|]. apply IH; auto.
Qed.
Lemma index_nodup names i n : NoDup names -> nth_error names i = Some n -> index_of (String.eqb n) names = Some i.
Proof.
  intros ND E. destruct (index_of (String.eqb n) names) as [j|] eqn:J.
  - destruct (index_some _ _ _ J) as (x & X & PX & _). apply String.eqb_eq in PX. subst x. f_equal.
    apply (proj1 (NoDup_nth_error names) ND); [apply nth_error_Some|]; congruence.
  - pose proof (proj1 (index_none _ _) J n (nth_error_In _ _ E)) as F. rewrite String.eqb_refl in F. discriminate.
Qed.
Lemma dict_get_set d n v m : dict_get (dict_set d n v) m = if String.eqb m n then Some v else dict_get d m.
Proof.
  induction d as [|[k w] d IH]; cbn; [reflexivity|]. destruct (String.eqb_spec n k) as [->|D]; cbn.
  - destruct (String.eqb m k); reflexivity.
  - rewrite IH. destruct (String.eqb_spec m k) as [->|]; [|reflexivity].
    replace (String.eqb k n) with false by (symmetry; apply String.eqb_neq; auto). reflexivity.
Qed.
Lemma dict_set_new d n v : ~ In n (map fst d) -> dict_set d n v = d ++ [(n, v)].
Proof.
  induction d as [|[k w] d IH]; intros N; [reflexivity|]. cbn in *.
  replace (String.eqb n k) with false by (symmetry; apply String.eqb_neq; intuition). rewrite IH; tauto.
Qed.
Lemma params_fold names values : forall k pd, k + length values <= length names ->
  params_from names k values pd = Ok (fold_left (fun d kv => dict_set d (fst kv) (snd kv)) (combine (skipn k names) values) pd).
Proof.
  induction values as [|v values IH]; intros k pd L; cbn [params_from].
  - destruct (skipn k names); reflexivity.
  - cbn in L. destruct (nth_error names k) as [n|] eqn:E; [|apply nth_error_None in E; lia].
    rewrite IH by lia. apply nth_error_split in E. destruct E as (a & b & -> & <-).
    replace (skipn (length a) (a ++ n :: b)) with (n :: b) by (symmetry; clear; induction a; auto).
    replace (skipn (S (length a)) (a ++ n :: b)) with b by (symmetry; clear; induction a; auto). reflexivity.
Qed.
Lemma fold_set_new l : forall d, NoDup (map fst d ++ map fst l) ->
  fold_left (fun (d : pdict) kv => dict_set d (fst kv) (snd kv)) l d = d ++ l.
Proof.
  induction l as [|[n v] l IH]; intros d N; [rewrite app_nil_r; reflexivity|]. cbn [fold_left map fst snd] in *.
  rewrite dict_set_new by (intros I; apply (NoDup_remove_2 _ _ _ N), in_or_app; auto).
  rewrite IH; [rewrite <- app_assoc; reflexivity|]. rewrite map_app, <- app_assoc. exact N.
Qed.
Lemma get_combine names values n : NoDup names -> length names = length values ->
  forall v, dict_get (combine names values) n = Some v <-> exists i, nth_error names i = Some n /\ nth_error values i = Some v.
Proof.
  revert values. induction names as [|a names IH]; intros [|w values] ND L v; try discriminate.
  - split; [discriminate|]. intros (i & E & _). destruct i; discriminate.
  - inversion ND; subst. cbn. destruct (String.eqb_spec n a) as [->|D].
    + split.
      * intros E. injection E as ->. exists 0. auto.
      * intros (i & E & F). destruct i as [|i]; [cbn in F; congruence|]. cbn in E. destruct H1. eapply nth_error_In; eauto.
    + rewrite (IH values H2) by (cbn in L; lia). split.
      * intros (i & E & F). exists (S i). auto.
      * intros (i & E & F). destruct i as [|i]; [cbn in E; congruence|]. exists i. auto.
Qed.

(** ** C87: an individual as a mapping *)
(** With different names, params has the names as keys, in order, each with the
    value that is read by name *)
Theorem C87_params names values : NoDup names -> length names = length values ->
  exists pd, params names values = Ok pd /\ map fst pd = names /\ map snd pd = values /\
    forall n v, dict_get pd n = Some v <-> getitem names values (KName n) = Ok v.
Proof.
  intros ND L. exists (combine names values).
  assert (MF : map fst (combine names values) = names).
  { clear ND. revert values L. induction names as [|a names IH]; intros [|w values] L; try discriminate; [reflexivity|]. cbn. rewrite IH; auto. }
  split; [|split; [exact MF|split]].
  - unfold params. rewrite params_fold by lia. cbn [skipn]. rewrite fold_set_new; [reflexivity|]. cbn. rewrite MF. exact ND.
  - clear MF ND. revert values L. induction names as [|a names IH]; intros [|w values] L; try discriminate; [reflexivity|]. cbn. rewrite IH; auto.
  - intros n v. rewrite get_combine by auto. cbn [getitem]. split.
    + intros (i & E & F). rewrite (index_nodup names i n ND E). apply item_nat. exact F.
    + destruct (index_of (String.eqb n) names) as [i|] eqn:J; [|discriminate]. intros E. exists i. apply item_nat in E.
      destruct (index_some _ _ _ J) as (x & X & PX & _). apply String.eqb_eq in PX. subst x. auto.
Qed.
(** It is the dict that is given to constraints *)
Theorem C87_constraints_see_params names values : length values <= length names -> params names values = Ok (mk_params names values).
Proof. intros L. unfold params, mk_params. rewrite params_fold by lia. reflexivity. Qed.
(** Reading fails for exactly the indices outside the array, and for names that are
    none: with ValueError, never KeyError *)
Theorem C87_missing names values : length names = length values ->
  (forall n, getitem names values (KName n) = Raise ValueError <-> ~ In n names) /\
  (forall z, getitem names values (KInt z) = Raise IndexError <-> (z < - Z.of_nat (length values) \/ Z.of_nat (length values) <= z)%Z) /\
  (forall k, getitem names values k <> Raise KeyError).
Proof.
  intros L.
  assert (IP : forall z, (exists v, item values z = Ok v) \/
     (item values z = Raise IndexError /\ (z < - Z.of_nat (length values) \/ Z.of_nat (length values) <= z)%Z)).
  { intros z. unfold item, pos.
    destruct (Z.leb_spec 0 z); [destruct (Z.ltb_spec z (Z.of_nat (length values)))|destruct (Z.leb_spec (- Z.of_nat (length values)) z)]; cbn [bind];
      try (right; split; [reflexivity|lia]); left.
    - destruct (nth_error values (Z.to_nat z)) eqn:E; [eauto|]. apply nth_error_None in E. lia.
    - destruct (nth_error values (Z.to_nat (Z.of_nat (length values) + z))) eqn:E; [eauto|]. apply nth_error_None in E. lia. }
  split; [|split].
  - intros n. cbn [getitem]. destruct (index_of (String.eqb n) names) as [i|] eqn:J.
    + destruct (index_some _ _ _ J) as (x & X & PX & _). apply String.eqb_eq in PX. subst x. split.
      * intros E. destruct (IP (Z.of_nat i)) as [[v V]|[V _]]; congruence.
      * intros N. destruct N. eapply nth_error_In; eauto.
    + split; [|auto]. intros _ I. pose proof (proj1 (index_none _ _) J n I) as F. rewrite String.eqb_refl in F. discriminate.
  - intros z. cbn [getitem]. destruct (IP z) as [[v V]|[V R]]; rewrite V; split; try easy.
    intros R. exfalso. unfold item in V. destruct (pos (length values) z) eqn:P; [|discriminate]. apply pos_spec in P. lia.
  - intros [z|n|] E; cbn [getitem] in E; try discriminate.
    + destruct (IP z) as [[v V]|[V _]]; congruence.
    + destruct (index_of (String.eqb n) names) as [i|]; [|discriminate]. destruct (IP (Z.of_nat i)) as [[v V]|[V _]]; congruence.
Qed.
(** A value written is the one read, by index (from the front or from the end) and by
    name; all others stay *)
Theorem C87_write names values z v values' : NoDup names -> length names = length values ->
  setitem values (KInt z) v = Ok values' ->
  exists k, k < length values /\ (z = Z.of_nat k \/ z = Z.of_nat k - Z.of_nat (length values))%Z /\
    length values' = length values /\
    (forall j n, nth_error names j = Some n ->
       getitem names values' (KName n) = (if j =? k then Ok v else getitem names values (KName n)) /\
       getitem names values' (KInt (Z.of_nat j)) = getitem names values' (KName n) /\
       getitem names values' (KInt (Z.of_nat j - Z.of_nat (length values))) = getitem names values' (KName n)).
Proof.
  intros ND L E. cbn [setitem] in E. destruct (pos (length values) z) as [k|] eqn:P; [|discriminate]. cbn in E. injection E as <-.
  apply pos_spec in P. destruct P as [K Z]. exists k. split; [exact K|]. split; [exact Z|]. split; [apply upd_length|].
  intros j n N. assert (J : j < length values) by (rewrite <- L; apply nth_error_Some; congruence).
  assert (G : forall vs, getitem names vs (KName n) = item vs (Z.of_nat j)).
  { intros vs. cbn [getitem]. rewrite (index_nodup names j n ND N). reflexivity. }
  rewrite !G. split; [|split].
  - destruct (Nat.eqb_spec j k) as [->|D].
    + apply item_nat. apply upd_same. exact K.
    + destruct (nth_error values j) as [w|] eqn:W; [|apply nth_error_None in W; lia].
      rewrite (proj2 (item_nat _ _ _) W). apply item_nat. rewrite upd_other by auto. exact W.
  - reflexivity.
  - cbn [getitem]. apply item_pos. apply pos_spec. rewrite upd_length. lia.
Qed.
(** A value can be read by name, but not written by name *)
Theorem C87_write_by_name_refuted : ~ (forall names values n v, getitem names values (KName n) = Ok v ->
  exists values', setitem values (KName n) v = Ok values').
Proof.
  intros H. destruct (H ["a"%string] [fzero] "a"%string fzero eq_refl) as [vs E]. discriminate.
Qed.
(** If two parameters have the same name, the dict has the last value, reading the first *)
Theorem C87_duplicate_names_refuted : ~ (forall names values pd n, length names = length values ->
  params names values = Ok pd -> In n names ->
  match dict_get pd n, getitem names values (KName n) with Some v, Ok w => feqb v w = true | _, _ => False end).
Proof.
  intros H. specialize (H ["a"; "a"]%string [fzero; fone] [("a"%string, fone)] "a"%string eq_refl eq_refl (or_introl eq_refl)).
  vm_compute in H. discriminate.
Qed.
Example C87_nonvacuous :
  NoDup ["x"; "y"; "z"]%string /\
  option_map (map fst) (match params ["x"; "y"; "z"]%string [fone; fzero; fone] with Ok d => Some d | _ => None end) = Some ["x"; "y"; "z"]%string /\
  (exists vs, setitem [fone; fzero; fone] (KInt (-2)) fone = Ok vs /\
    match getitem ["x"; "y"; "z"]%string vs (KName "y"%string) with Ok v => feqb v fone | _ => false end = true) /\
  getitem ["x"; "y"; "z"]%string [fone; fzero; fone] (KName "w"%string) = Raise ValueError.
Proof.
  split; [repeat constructor; cbn; intuition discriminate|]. split; [reflexivity|]. split; [|reflexivity].
  eexists. split; [reflexivity|]. vm_compute. reflexivity.
Qed.

(** ** C88: arrays are shared only on request *)
Section H.
Context {V : Type}.
Variables vadd vsub : V -> V -> V.
Variable vlim : list V -> list V.
Notation step := (h_step vadd vsub vlim).
Notation exec := (h_exec vadd vsub vlim).

(** handing over an individual's array itself *)
Definition shares (op : hop V) : Prop := match op with OArray _ | OUpdArray _ _ => True | _ => False end.
(** the individual an operation is meant to change *)
Definition target (op : hop V) : option nat :=
  match op with OSet i _ _ | OUpdList i _ | OUpdArray i _ | OLimit i => Some i | _ => None end.
(** operations on individuals there are *)
Definition uses (op : hop V) (n : nat) : Prop :=
  match op with
  | OList _ => True
  | OArray i | OCopy i | OMul i _ | OSet i _ _ | OUpdList i _ | OLimit i => i < n
  | OAdd i j | OSub i j | OUpdArray i j => i < n /\ j < n
  end.
Fixpoint valid (n : nat) (ops : list (hop V)) : Prop :=
  match ops with
  | [] => True
  | op :: ops => uses op n /\ valid (length (inds (step (mkHeap [] (repeat 0 n)) op))) ops
  end.

Definition h_ok (h : heap V) : Prop := Forall (fun r => r < length (arrs h)) (inds h).
Definition apart (h : heap V) : Prop := h_ok h /\ NoDup (inds h).

Lemma ref_in (h : heap V) i : i < length (inds h) -> In (ref h i) (inds h).
Proof. intros L. apply nth_In. exact L. Qed.
Lemma ok_ref (h : heap V) i : h_ok h -> i < length (inds h) -> ref h i < length (arrs h).
Proof. intros O L. apply (proj1 (Forall_forall _ _) O). apply ref_in. exact L. Qed.
Lemma view_make (h : heap V) vs i : h_ok h -> i < length (inds h) -> view (make h vs) i = view h i.
Proof.
  intros O L. unfold view, array, ref, make. cbn. rewrite (app_nth1 (inds h)) by exact L. apply app_nth1. apply (ok_ref h i O L).
Qed.
Lemma view_new (h : heap V) vs : view (make h vs) (length (inds h)) = vs.
Proof. unfold view, array, ref, make. cbn. rewrite (app_nth2 (inds h)) by lia. rewrite Nat.sub_diag. cbn. rewrite app_nth2 by lia. rewrite Nat.sub_diag. reflexivity. Qed.
Lemma apart_make (h : heap V) vs : apart h -> apart (make h vs).
Proof.
  intros [O N]. unfold make, alloc, indiv, apart, h_ok in *. cbn. rewrite app_length. cbn. split.
  - apply Forall_app. split; [eapply Forall_impl; [|exact O]; cbn; intros; lia|]. constructor; [lia|constructor].
  - apply NoDup_rev in N. rewrite <- (rev_involutive (inds h ++ _)). apply NoDup_rev. rewrite rev_app_distr. cbn. constructor; [|exact N].
    rewrite <- in_rev. intros I. apply (proj1 (Forall_forall _ _) O) in I. lia.
Qed.
Lemma upd_nth {A} (l : list A) i x d j : i < length l -> nth j (upd i x l) d = if j =? i then x else nth j l d.
Proof. revert i j. induction l as [|a l IH]; intros i j L; [cbn in L; lia|]. destruct i, j; cbn in *; auto. apply IH. lia. Qed.
Lemma in_upd {A} (l : list A) i x y : In y (upd i x l) -> y = x \/ In y l.
Proof. revert i. induction l as [|a l IH]; intros i I; [destruct i; destruct I|]. destruct i; cbn in *; destruct I; auto. destruct (IH i H); auto. Qed.
Lemma upd_NoDup {A} (l : list A) i x : NoDup l -> ~ In x l -> NoDup (upd i x l).
Proof.
  revert i. induction l as [|a l IH]; intros i N F; [destruct i; constructor|]. inversion N; subst. destruct i; cbn in *.
  - constructor; tauto.
  - constructor; [|apply IH; tauto]. intros I. apply in_upd in I. intuition.
Qed.
Lemma apart_point h vs i : apart h -> i < length (inds h) -> apart (point (fst (alloc h vs)) i (snd (alloc h vs))).
Proof.
  intros [O N] L. unfold apart, h_ok, point, alloc in *. cbn. rewrite app_length. cbn. split.
  - apply Forall_forall. intros r I. apply in_upd in I. destruct I as [->|I]; [lia|]. apply (proj1 (Forall_forall _ _) O) in I. lia.
  - apply upd_NoDup; [exact N|]. intros I. apply (proj1 (Forall_forall _ _) O) in I. lia.
Qed.
Lemma apart_step h op : apart h -> uses op (length (inds h)) -> ~ shares op -> apart (step h op).
Proof.
  intros A U S. destruct op; cbn [h_step]; try (apply apart_make; exact A); try (destruct S; exact I).
  - destruct A as [O N]. split; [|exact N]. unfold h_ok in *. cbn. rewrite upd_length. exact O.
  - apply (apart_point h vs i A U).
  - apply (apart_point h (vlim (view h i)) i A U).
Qed.
Lemma step_len h op : length (inds (step h op)) = length (inds (step (mkHeap [] (repeat 0 (length (inds h)))) op)).
Proof. destruct op; cbn; rewrite ?app_length, ?upd_length, ?repeat_length; reflexivity. Qed.
Lemma apart_exec ops : forall h, apart h -> valid (length (inds h)) ops -> Forall (fun op => ~ shares op) ops -> apart (exec h ops).
Proof.
  induction ops as [|op ops IH]; intros h A W F; [exact A|]. inversion F; subst. destruct W as [U W]. cbn [h_exec]. apply IH; auto.
  - apply apart_step; auto.
  - rewrite step_len. exact W.
Qed.
Lemma apart_app ops rest : forall h, apart h -> valid (length (inds h)) (ops ++ rest) -> Forall (fun op => ~ shares op) ops ->
  apart (exec h ops) /\ valid (length (inds (exec h ops))) rest.
Proof.
  induction ops as [|o ops IH]; intros h A W F; [split; auto|]. inversion F; subst. destruct W as [U W]. cbn [h_exec]. apply IH; auto.
  - apply apart_step; auto.
  - rewrite step_len. exact W.
Qed.
Lemma grow h op : length (inds h) <= length (inds (step h op)).
Proof. destruct op; cbn; rewrite ?app_length, ?upd_length; lia. Qed.

Lemma step_others h op b : apart h -> uses op (length (inds h)) -> b < length (inds h) -> target op <> Some b -> view (step h op) b = view h b.
Proof.
  intros [O N] U B T. destruct op; cbn [h_step uses target] in *; try (apply view_make; auto).
  - unfold view, array, ref, indiv. cbn. rewrite (app_nth1 (inds h)) by exact B. reflexivity.
  - unfold view at 1, array, ref. cbn. rewrite upd_nth by (apply ok_ref; auto).
    destruct (Nat.eqb_spec (nth b (inds h) 0) (nth i (inds h) 0)) as [E|D]; [|reflexivity].
    exfalso. apply T. f_equal. apply (proj1 (NoDup_nth (inds h) 0) N); auto.
  - unfold view, array, ref, point, alloc. cbn. rewrite upd_nth by auto.
    destruct (Nat.eqb_spec b i) as [->|]; [destruct T; reflexivity|]. apply app_nth1. apply (ok_ref h b O B).
  - unfold view, array, ref, point. cbn. rewrite upd_nth by (apply U).
    destruct (Nat.eqb_spec b i) as [->|]; [destruct T; reflexivity|]. reflexivity.
  - unfold view, array, ref, point, alloc. cbn. rewrite upd_nth by auto.
    destruct (Nat.eqb_spec b i) as [->|]; [destruct T; reflexivity|]. apply app_nth1. apply (ok_ref h b O B).
Qed.

(** If no array is handed over itself, each operation changes the values of the
    individual it is meant for only: never those of one it was copied from, computed
    from, or that was copied or computed from it *)
Theorem C88_no_interference ops op b : valid 0 (ops ++ [op]) -> Forall (fun o => ~ shares o) ops ->
  forall h, h = exec h_init ops -> b < length (inds h) -> target op <> Some b ->
  view (step h op) b = view h b.
Proof.
  intros W F h -> B T.
  destruct (apart_app ops [op] h_init) as [A [U _]]; auto; [split; constructor|]. apply step_others; auto.
Qed.
(** In a challenge, only the new individual gets other values: making base + (A - B)
    * F and writing any of the parent's values into it leaves all individuals there
    were as they are *)
Theorem C88_challenge ops base a b f writes : valid 0 ops -> Forall (fun o => ~ shares o) ops ->
  forall h, h = exec h_init ops -> base < length (inds h) -> a < length (inds h) -> b < length (inds h) ->
  forall n, n = length (inds h) ->
  forall h', h' = exec h ([OSub a b; OMul n f; OAdd base (n + 1)] ++ map (fun kv => OSet (n + 2) (fst kv) (snd kv)) writes) ->
  (forall i, i < n -> view h' i = view h i) /\
  (forall k v, (forall w, ~ In (k, w) writes) -> nth_error (map2 vadd (view h base) (map f (map2 vsub (view h a) (view h b)))) k = Some v ->
     nth_error (view h' (n + 2)) k = Some v).
Proof.
  intros W F h Eh HB HA HB' n En h' Eh'.
  assert (A0 : apart h) by (subst h; apply apart_exec; auto; split; constructor).
  clear W F ops Eh. subst n. set (n := length (inds h)) in *.
  cbn [app h_exec h_step] in Eh'.
  set (h1 := make h (map2 vsub (view h a) (view h b))) in *.
  set (h2 := make h1 (map f (view h1 n))) in *.
  set (h3 := make h2 (map2 vadd (view h2 base) (view h2 (n + 1)))) in *.
  assert (L1 : length (inds h1) = n + 1) by (unfold h1, make, alloc, indiv; cbn; rewrite app_length; cbn; reflexivity).
  assert (L2 : length (inds h2) = n + 2) by (unfold h2, make, alloc, indiv; cbn [inds]; rewrite app_length, L1; cbn; lia).
  assert (L3 : length (inds h3) = n + 3) by (unfold h3, make, alloc, indiv; cbn [inds]; rewrite app_length, L2; cbn; lia).
  assert (A1 : apart h1) by (apply apart_make; auto). assert (A2 : apart h2) by (apply apart_make; auto).
  assert (A3 : apart h3) by (apply apart_make; auto).
  assert (V3 : view h3 (n + 2) = map2 vadd (view h base) (map f (map2 vsub (view h a) (view h b)))).
  { unfold h3. rewrite <- L2, view_new. f_equal.
    - unfold h2. rewrite view_make by (try apply A1; rewrite ?L1; lia). unfold h1. rewrite view_make by (try apply A0; auto). reflexivity.
    - unfold h2. rewrite <- L1, view_new. f_equal. unfold h1. unfold n. apply view_new. }
  assert (O3 : forall i, i < n -> view h3 i = view h i).
  { intros i I. unfold h3. rewrite view_make by (try apply A2; lia). unfold h2. rewrite view_make by (try apply A1; lia).
    unfold h1. apply view_make; [apply A0|exact I]. }
  rewrite <- V3. clear V3. clearbody h3. clear h1 h2 L1 L2 A1 A2. subst h'.
  revert h3 L3 A3 O3. induction writes as [|[k w] writes IH]; intros h3 L3 A3 O3; [split; auto|].
  cbn [map h_exec h_step fst snd].
  set (h4 := mkHeap (upd (ref h3 (n + 2)) (upd k w (view h3 (n + 2))) (arrs h3)) (inds h3)).
  assert (E4 : h4 = step h3 (OSet (n + 2) k w)) by reflexivity.
  assert (R : ref h3 (n + 2) < length (arrs h3)) by (apply ok_ref; [apply A3|lia]).
  assert (V4 : view h4 (n + 2) = upd k w (view h3 (n + 2))).
  { unfold view at 1, array, h4. cbn [arrs]. rewrite upd_nth by exact R. unfold ref. cbn [inds]. rewrite Nat.eqb_refl. reflexivity. }
  destruct (IH h4) as [I1 I2].
  - exact L3.
  - rewrite E4. apply apart_step; auto. cbn. lia.
  - intros i I. rewrite <- O3 by exact I. rewrite E4. apply step_others; auto; [cbn|cbn|]; try lia. cbn. intros E. injection E. lia.
  - split; [exact I1|]. intros k' v N E. apply I2.
    + intros w' I. apply (N w'). right. exact I.
    + rewrite V4, upd_other; [exact E|]. intros ->. apply (N w). left. reflexivity.
Qed.
(** A copy has the values of the original, and keeps them *)
Theorem C88_copy ops i more : valid 0 (ops ++ OCopy i :: more) -> Forall (fun o => ~ shares o) (ops ++ more) ->
  forall h, h = exec h_init ops -> Forall (fun o => target o <> Some (length (inds h))) more ->
  view (exec h (OCopy i :: more)) (length (inds h)) = view h i.
Proof.
  intros W F h Eh T. apply Forall_app in F. destruct F as [F1 F2].
  assert (G : apart h /\ valid (length (inds h)) (OCopy i :: more)).
  { subst h. apply (apart_app ops (OCopy i :: more) h_init); auto. split; constructor. }
  clear W F1 Eh. destruct G as [A [U W]]. cbn [h_exec].
  transitivity (view (make h (view h i)) (length (inds h))); [|apply view_new].
  change (step h (OCopy i)) with (make h (view h i)). rewrite <- step_len in W. change (step h (OCopy i)) with (make h (view h i)) in W.
  assert (A' : apart (make h (view h i))) by (apply apart_make; exact A).
  assert (B : length (inds h) < length (inds (make h (view h i)))) by (unfold make, alloc, indiv; cbn; rewrite app_length; cbn; lia).
  revert B A' W. generalize (make h (view h i)) as h1. clear A U. revert F2 T. generalize (length (inds h)) as b. clear h.
  induction more as [|o more IH]; intros b F2 T h1 B A' W; [reflexivity|].
  inversion F2; subst. inversion T; subst. destruct W as [U W]. cbn [h_exec]. rewrite IH; auto.
  - apply step_others; auto.
  - pose proof (grow h1 o). lia.
  - apply apart_step; auto.
  - rewrite step_len. exact W.
Qed.
End H.

(** spawn, or update, with another individual's array shares it: writing to the one
    changes the other *)
Theorem C88_spawn_array_refuted : ~ (forall (ops : list (hop nat)) op b,
  valid Nat.add Nat.sub (fun l => l) 0 (ops ++ [op]) ->
  b < length (inds (h_exec Nat.add Nat.sub (fun l => l) h_init ops)) -> target op <> Some b ->
  view (h_step Nat.add Nat.sub (fun l => l) (h_exec Nat.add Nat.sub (fun l => l) h_init ops) op) b =
  view (h_exec Nat.add Nat.sub (fun l => l) h_init ops) b).
Proof.
  intros H. specialize (H [OList [1; 2]; OArray 0] (OSet 1 0 7) 0). cbn in H. discriminate H; [repeat split; lia|lia|discriminate].
Qed.
Theorem C88_update_array_refuted : ~ (forall (ops : list (hop nat)) op b,
  valid Nat.add Nat.sub (fun l => l) 0 (ops ++ [op]) -> Forall (fun o => match o with OArray _ => False | _ => True end) ops ->
  b < length (inds (h_exec Nat.add Nat.sub (fun l => l) h_init ops)) -> target op <> Some b ->
  view (h_step Nat.add Nat.sub (fun l => l) (h_exec Nat.add Nat.sub (fun l => l) h_init ops) op) b =
  view (h_exec Nat.add Nat.sub (fun l => l) h_init ops) b).
Proof.
  intros H. specialize (H [OList [1; 2]; OList [3; 4]; OUpdArray 1 0] (OSet 0 1 7) 1). cbn in H.
  discriminate H; [repeat split; lia|repeat constructor|lia|discriminate].
Qed.
Example C88_nonvacuous :
  let ops := [OList [1; 2]; OList [3; 4]; OCopy 0; OSub 1 0; OMul 3 (Nat.mul 2); OAdd 0 4; OLimit 5] in
  valid Nat.add Nat.sub (fun l => l) 0 (ops ++ [OSet 5 1 9]) /\ Forall (fun o => ~ shares o) ops /\
  let h := h_exec Nat.add Nat.sub (fun l => l) h_init (ops ++ [OSet 5 1 9]) in
  (view h 0 = [1; 2] /\ view h 2 = [1; 2]) /\ view h 5 = [5; 9].
Proof. cbv zeta. cbn. repeat split; try lia; repeat constructor; intros []. Qed.

Print Assumptions C87_params.
Print Assumptions C87_constraints_see_params.
Print Assumptions C87_missing.
Print Assumptions C87_write.
Print Assumptions C87_write_by_name_refuted.
Print Assumptions C87_duplicate_names_refuted.
Print Assumptions C88_no_interference.
Print Assumptions C88_challenge.
Print Assumptions C88_copy.
Print Assumptions C88_spawn_array_refuted.
Print Assumptions C88_update_array_refuted.
