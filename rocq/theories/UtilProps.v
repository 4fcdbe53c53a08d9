(** * Properties of EvalTimer (C70), Picklable (C71) and the choice of an image viewer (C72). *)
From Coq Require Import Bool Arith ZArith Ascii String List Lia Reals Lra Permutation Sorted.
From Flocq Require Import Core BinarySingleNaN.
From Verif Require Import Flt FltMore Py UtilModel.
Import ListNotations.
Local Open Scope nat_scope.
#[local] Arguments fadd : simpl never.
#[local] Arguments fdiv : simpl never.
#[local] Arguments fltb : simpl never.
#[local] Arguments fofZ : simpl never.

(** ** Vocabulary *)
(** the times at which a part was completed, in order *)
Fixpoint completions (id : nat) (evs : list tev) : list f64 :=
  match evs with
  | [] => []
  | TDone i t :: r => if i =? id then t :: completions id r else completions id r
  | TCall _ _ :: r => completions id r
  end.
(** their mean, in floating point *)
Definition mean (id : nat) (evs : list tev) : f64 :=
  fdiv (fold_left fadd (completions id evs) fzero) (fofZ (Z.of_nat (length (completions id evs)))).
Definition before {A} (a b : A) (l : list A) : Prop := exists l1 l2, l = l1 ++ a :: l2 /\ In b l2.
(** [a] was completed for the first time before [b] was *)
Definition completed_first (a b : nat) (evs : list tev) : Prop :=
  exists l1 l2, evs = l1 ++ l2 /\ completions a l1 <> [] /\ completions b l1 = [].

(** ** Lemmas *)
Lemma completions_app id l1 l2 : completions id (l1 ++ l2) = completions id l1 ++ completions id l2.
Proof. induction l1 as [|[i t|i t] l1 IH]; cbn; auto. destruct (i =? id); cbn; rewrite IH; reflexivity. Qed.

Lemma et_done_keys tab id now : map fst (et_done tab id now) = map fst tab ++ (if existsb (Nat.eqb id) (map fst tab) then [] else [id]).
Proof.
  induction tab as [|[i [s n]] tab IH]; [reflexivity|]. cbn [et_done map fst existsb]. destruct (Nat.eqb_spec i id) as [->|D].
  - rewrite Nat.eqb_refl. cbn. rewrite app_nil_r. reflexivity.
  - replace (id =? i) with false by (symmetry; apply Nat.eqb_neq; auto). cbn. rewrite IH. reflexivity.
Qed.
Fixpoint tlook (id : nat) (tab : ettab) : option (f64 * nat) :=
  match tab with [] => None | (i, v) :: r => if i =? id then Some v else tlook id r end.
Lemma et_done_look tab id now x : tlook x (et_done tab id now) =
  if x =? id then match tlook id tab with Some (s, n) => Some (fadd s now, S n) | None => Some (fadd fzero now, 1) end else tlook x tab.
Proof.
  induction tab as [|[i [s n]] tab IH].
  - cbn. rewrite (Nat.eqb_sym id x). destruct (x =? id); reflexivity.
  - cbn [et_done tlook]. destruct (Nat.eqb_spec i id) as [->|D].
    + cbn [tlook]. rewrite (Nat.eqb_sym id x). destruct (x =? id); reflexivity.
    + cbn [tlook]. rewrite IH. destruct (Nat.eqb_spec i x) as [->|D'].
      * replace (x =? id) with false by (symmetry; apply Nat.eqb_neq; auto). reflexivity.
      * reflexivity.
Qed.
Lemma tlook_in id tab : tlook id tab = None <-> ~ In id (map fst tab).
Proof.
  induction tab as [|[i v] tab IH]; cbn; [tauto|]. destruct (Nat.eqb_spec i id) as [->|D]; [split; [discriminate|tauto]|].
  rewrite IH. tauto.
Qed.
Lemma tlook_some id v tab : NoDup (map fst tab) -> In (id, v) tab -> tlook id tab = Some v.
Proof.
  induction tab as [|[i w] tab IH]; cbn; [tauto|]. intros N [E|I].
  - injection E as -> ->. rewrite Nat.eqb_refl. reflexivity.
  - inversion N; subst. destruct (Nat.eqb_spec i id) as [->|D]; [|auto]. destruct H1. apply (in_map fst) in I. exact I.
Qed.

Lemma run_spec evs : NoDup (map fst (et_run evs)) /\
  (forall id, tlook id (et_run evs) = match completions id evs with [] => None | l => Some (fold_left fadd l fzero, length l) end) /\
  (forall l1 l2, evs = l1 ++ l2 -> exists r, map fst (et_run evs) = map fst (et_run l1) ++ r).
Proof.
  induction evs as [|e evs IH] using rev_ind.
  - split; [constructor|]. split; [reflexivity|]. intros l1 l2 E. symmetry in E. apply app_eq_nil in E. destruct E as [-> ->]. exists []. reflexivity.
  - destruct IH as (N & L & P). unfold et_run in *. rewrite fold_left_app. cbn [fold_left].
    set (tab := fold_left et_step evs []) in *. split; [|split].
    + destruct e as [i t|i t]; [exact N|]. cbn [et_step]. rewrite et_done_keys.
      destruct (existsb (Nat.eqb i) (map fst tab)) eqn:E; [rewrite app_nil_r; exact N|].
      apply (Permutation_NoDup (l := i :: map fst tab)); [apply Permutation_cons_append|]. constructor; [|exact N].
      intros I. assert (X : existsb (Nat.eqb i) (map fst tab) = true) by (apply existsb_exists; exists i; split; [exact I|apply Nat.eqb_refl]). congruence.
    + intros id. rewrite completions_app. destruct e as [i t|i t]; cbn [et_step completions].
      * rewrite app_nil_r. apply L.
      * rewrite et_done_look, (Nat.eqb_sym i id). destruct (Nat.eqb_spec id i) as [->|D].
        -- rewrite L. destruct (completions i evs) as [|c l]; [reflexivity|]. cbn [app]. change (c :: l ++ [t]) with ((c :: l) ++ [t]). rewrite fold_left_app, app_length, Nat.add_1_r. reflexivity.
        -- rewrite app_nil_r. apply L.
    + intros l1 l2 E. destruct l2 as [|x l2 _] using rev_ind.
      * rewrite app_nil_r in E. subst l1. exists []. rewrite fold_left_app, app_nil_r. reflexivity.
      * rewrite app_assoc in E. apply app_inj_tail in E. destruct E as [E ->]. destruct (P l1 l2 E) as [r Er]. 
        destruct x as [i t|i t]; [exists r; exact Er|]. cbn [et_step]. rewrite et_done_keys, Er, <- app_assoc. eexists. reflexivity.
Qed.

Lemma pinsert_perm x l : Permutation (pinsert x l) (x :: l).
Proof.
  induction l as [|y l IH]; cbn; [reflexivity|]. destruct (fltb (snd y) (snd x)); [|reflexivity].
  rewrite IH. apply perm_swap.
Qed.
Lemma psort_perm l : Permutation (psort l) l.
Proof. induction l as [|x l IH]; cbn; [reflexivity|]. rewrite pinsert_perm, IH. reflexivity. Qed.
Lemma before_cons {A} (z a b : A) l : before a b l -> before a b (z :: l).
Proof. intros (l1 & l2 & -> & I). exists (z :: l1), l2. auto. Qed.
Lemma before_pinsert z a b l : before a b l -> before a b (pinsert z l).
Proof.
  intros (l1 & l2 & -> & I). induction l1 as [|y l1 IH]; cbn [app pinsert].
  - destruct (fltb (snd a) (snd z)).
    + exists [], (pinsert z l2). split; [reflexivity|]. apply (Permutation_in _ (Permutation_sym (pinsert_perm z l2))). right. exact I.
    + exists [z], l2. auto.
  - destruct (fltb (snd y) (snd z)); [apply before_cons; exact IH|]. exists (z :: y :: l1), l2. auto.
Qed.
Lemma pinsert_before x y l : In y l -> fltb (snd y) (snd x) = false -> before x y (pinsert x l).
Proof.
  induction l as [|z l IH]; intros I F; [destruct I|]. cbn [pinsert]. destruct (fltb (snd z) (snd x)) eqn:E.
  - destruct I as [->|I]; [congruence|]. apply before_cons. auto.
  - exists [], (z :: l). auto.
Qed.
Lemma psort_stable x y l : before x y l -> fltb (snd y) (snd x) = false -> before x y (psort l).
Proof.
  intros (l1 & l2 & -> & I) F. induction l1 as [|z l1 IH]; cbn [app psort].
  - apply pinsert_before; [|exact F]. apply (Permutation_in _ (Permutation_sym (psort_perm l2))). exact I.
  - apply before_pinsert. exact IH.
Qed.
Definition notless (x y : nat * f64) : Prop := fltb (snd y) (snd x) = false.
Lemma psort_sorted l : Forall (fun x => isnan (snd x) = false) l -> StronglySorted notless (psort l).
Proof.
  induction 1 as [|x l N F IH]; cbn; [constructor|].
  assert (F' : Forall (fun x => isnan (snd x) = false) (psort l)) by (eapply Permutation_Forall; [symmetry; apply psort_perm|exact F]).
  clear F. induction IH as [|y m S IH H]; cbn [pinsert].
  - repeat constructor.
  - inversion F' as [|y' m' Ny Fm]; subst. destruct (fltb (snd y) (snd x)) eqn:E.
    + constructor; [apply IH; exact Fm|]. eapply Permutation_Forall; [symmetry; apply pinsert_perm|]. constructor; [|exact H].
      apply fltb_asym. exact E.
    + constructor; [constructor; auto|]. constructor; [exact E|]. rewrite Forall_forall in *. intros z I. specialize (H z I). unfold notless in *.
      apply not_true_is_false. intros K. apply fltb_spec in K. apply (fltb_false _ _ (Fm z I) Ny) in H. apply (fltb_false _ _ Ny N) in E. lra.
Qed.
Lemma sorted_before {A} (R : A -> A -> Prop) l a b : StronglySorted R l -> before a b l -> R a b.
Proof.
  intros S (l1 & l2 & -> & I). induction l1 as [|y l1 IH]; cbn [app] in S; inversion S; subst; auto.
  rewrite Forall_forall in *. auto.
Qed.
Lemma before_total {A} (l : list A) a b : In a l -> In b l -> a <> b -> before a b l \/ before b a l.
Proof.
  induction l as [|x l IH]; intros Ia Ib D; [destruct Ia|]. destruct Ia as [->|Ia], Ib as [->|Ib].
  - congruence.
  - left. exists [], l. auto.
  - right. exists [], l. auto.
  - destruct (IH Ia Ib D); [left|right]; apply before_cons; auto.
Qed.
Lemma before_map {A B} (f : A -> B) l a b : before a b l -> before (f a) (f b) (map f l).
Proof. intros (l1 & l2 & -> & I). exists (map f l1), (map f l2). rewrite map_app. split; [reflexivity|]. apply in_map. exact I. Qed.

Definition pairs_of (tab : ettab) : list (nat * f64) :=
  map (fun e => (fst e, fdiv (fst (snd e)) (fofZ (Z.of_nat (snd (snd e)))))) tab.
Lemma pairs_fst tab : map fst (pairs_of tab) = map fst tab.
Proof. unfold pairs_of. rewrite map_map. reflexivity. Qed.
Lemma pairs_mean evs id v : In (id, v) (pairs_of (et_run evs)) -> v = mean id evs.
Proof.
  destruct (run_spec evs) as (N & L & _). unfold pairs_of. intros I. apply in_map_iff in I. destruct I as ([i [s n]] & E & I).
  cbn in E. injection E as -> <-. apply tlook_some in I; [|exact N]. rewrite L in I. unfold mean.
  destruct (completions id evs) as [|c l]; [discriminate|]. injection I as <- <-. reflexivity.
Qed.
Lemma pairs_in evs id : completions id evs <> [] -> In (id, mean id evs) (pairs_of (et_run evs)).
Proof.
  intros C. destruct (run_spec evs) as (N & L & _).
  assert (I : In id (map fst (pairs_of (et_run evs)))).
  { rewrite pairs_fst. specialize (L id). destruct (completions id evs); [contradiction|].
    destruct (in_dec Nat.eq_dec id (map fst (et_run evs))) as [I|I]; [exact I|]. apply tlook_in in I. congruence. }
  apply in_map_iff in I. destruct I as ([i v] & E & I). cbn in E. subst i. rewrite <- (pairs_mean evs id v I). exact I.
Qed.

(** ** C70: the order in which an EvalTimer iterates *)
(** It iterates over the parts completed, each once *)
Theorem C70_once evs : NoDup (et_iter (et_run evs)) /\
  forall id, In id (et_iter (et_run evs)) <-> exists t, In (TDone id t) evs.
Proof.
  assert (P : Permutation (et_iter (et_run evs)) (map fst (et_run evs))).
  { unfold et_iter. fold (pairs_of (et_run evs)). rewrite <- pairs_fst. apply Permutation_map, psort_perm. }
  destruct (run_spec evs) as (N & L & _). split; [apply (Permutation_NoDup (Permutation_sym P) N)|]. intros id.
  assert (C : completions id evs <> [] <-> exists t, In (TDone id t) evs).
  { clear. induction evs as [|[i t|i t] evs IH]; cbn [completions In].
    - split; [congruence|intros [t []]].
    - rewrite IH. split; intros [u H]; exists u; [tauto|destruct H; [discriminate|auto]].
    - destruct (Nat.eqb_spec i id) as [->|D].
      + split; [intros _; exists t; auto|discriminate].
      + rewrite IH. split; intros [u H]; exists u; [tauto|destruct H as [H|H]; [injection H as -> ->; contradiction|auto]]. }
  rewrite <- C. split.
  - intros I E. apply (Permutation_in _ P) in I. specialize (L id). rewrite E in L. apply tlook_in in L. contradiction.
  - intros E. apply (Permutation_in _ (Permutation_sym P)). rewrite <- pairs_fst. apply (in_map fst _ _ (pairs_in evs id E)).
Qed.
(** A part comes before another if the mean of the times at which it was completed
    is less, or the same and it was completed first *)
Theorem C70_order evs a b : (forall id t, In (TDone id t) evs -> isnan (mean id evs) = false) ->
  completions a evs <> [] -> completions b evs <> [] ->
  fltb (mean a evs) (mean b evs) = true \/ feqb (mean a evs) (mean b evs) = true /\ completed_first a b evs ->
  before a b (et_iter (et_run evs)).
Proof.
  intros NN Ca Cb H.
  assert (IC : forall id, completions id evs <> [] -> isnan (mean id evs) = false).
  { intros id C.
    assert (X : exists t, In (TDone id t) evs).
    { clear -C. induction evs as [|[i t|i t] evs IH]; cbn in C |- *; [contradiction| |].
      - destruct (IH C) as [u I]. eauto.
      - destruct (Nat.eqb_spec i id) as [->|D]; [eauto|]. destruct (IH C) as [u I]. eauto. }
    destruct X as [t I]. eauto. }
  unfold et_iter. fold (pairs_of (et_run evs)).
  set (x := (a, mean a evs)). set (y := (b, mean b evs)). change a with (fst x). change b with (fst y). apply before_map.
  pose proof (pairs_in evs a Ca) as Ia. pose proof (pairs_in evs b Cb) as Ib. fold x in Ia. fold y in Ib.
  destruct H as [H|[H F]].
  - assert (D : x <> y) by (intros E; injection E as -> E; rewrite (fltb_irrefl) in H; discriminate).
    destruct (before_total (psort (pairs_of (et_run evs))) x y) as [B|B]; auto;
      try (apply (Permutation_in _ (Permutation_sym (psort_perm _))); assumption).
    exfalso. apply (sorted_before notless) in B.
    + unfold notless in B. cbn in B. congruence.
    + apply psort_sorted. apply Forall_forall. intros [i v] I. cbn. rewrite (pairs_mean _ _ _ I). apply IC.
      destruct (run_spec evs) as (N & L & _). intros E. specialize (L i). rewrite E in L. apply tlook_in in L. apply L.
      rewrite <- pairs_fst. apply (in_map fst _ _ I).
  - apply psort_stable.
    + destruct F as (l1 & l2 & E & F1 & F2). destruct (run_spec evs) as (N & _ & P). destruct (P l1 l2 E) as [r Er].
      destruct (run_spec l1) as (_ & L1 & _).
      assert (Ka : In a (map fst (et_run l1))).
      { destruct (in_dec Nat.eq_dec a (map fst (et_run l1))) as [I|I]; [exact I|]. apply tlook_in in I. rewrite L1 in I.
        destruct (completions a l1); [contradiction|discriminate]. }
      assert (Kb : ~ In b (map fst (et_run l1))) by (apply tlook_in; rewrite L1, F2; reflexivity).
      assert (D : x <> y) by (intros X; injection X as -> _; contradiction).
      destruct (before_total (pairs_of (et_run evs)) x y Ia Ib D) as [B|B]; [exact B|exfalso].
      apply (before_map fst) in B. rewrite pairs_fst, Er in B. cbn in B.
      destruct B as (m1 & m2 & Em & Im). rewrite <- pairs_fst, pairs_fst, Er in N.
      (* b is not in the first part, so a is in the rest as well *)
      assert (Kr : In a r).
      { clear -Em Im Kb. revert m1 Em. generalize (map fst (et_run l1)) Kb. intros k Kb' m1. revert k Kb'.
        induction m1 as [|z m1 IH]; intros k Kb' Em; destruct k as [|w k]; cbn in Em.
        - rewrite Em. right. exact Im.
        - injection Em as -> _. destruct Kb'. left. reflexivity.
        - rewrite Em. right. apply in_or_app. right. right. exact Im.
        - injection Em as _ Em. apply (IH k); [intros I; apply Kb'; right; exact I|exact Em]. }
      clear -N Ka Kr. induction (map fst (et_run l1)) as [|w k IH]; [destruct Ka|]. cbn in N. inversion N; subst.
      destruct Ka as [->|Ka]; [apply H1, in_or_app; auto|auto].
    + cbn. apply feqb_spec in H. destruct H as (_ & _ & H). destruct (fltb (mean b evs) (mean a evs)) eqn:E; [|reflexivity].
      apply fltb_spec in E. lra.
Qed.
(** When a part was started does not matter at all *)
Theorem C70_start_irrelevant evs evs' : filter (fun e => match e with TDone _ _ => true | _ => false end) evs =
    filter (fun e => match e with TDone _ _ => true | _ => false end) evs' ->
  et_iter (et_run evs) = et_iter (et_run evs').
Proof.
  assert (R : forall evs tab, fold_left et_step evs tab = fold_left et_step (filter (fun e => match e with TDone _ _ => true | _ => false end) evs) tab).
  { clear. induction evs as [|[i t|i t] evs IH]; intros tab; cbn; auto. }
  intros H. unfold et_run. rewrite (R evs), (R evs'), H. reflexivity.
Qed.
(** The means are numbers if the times are: finite and not negative *)
Theorem C70_number evs : (forall id t, In (TDone id t) evs -> isfin t = true /\ fleb fzero t = true) ->
  (Z.of_nat (length evs) < 2 ^ 53)%Z -> forall id, completions id evs <> [] -> isnan (mean id evs) = false.
Proof.
  intros T L id C.
  assert (G : forall l s, Forall (fun t => isfin t = true /\ fleb fzero t = true) l -> isnan s = false -> (0 <= key s)%R ->
    isnan (fold_left fadd l s) = false /\ (0 <= key (fold_left fadd l s))%R).
  { clear. induction l as [|t l IH]; intros s F N K; [auto|]. inversion F as [|t' l' [Ft Kt] F']; subst. cbn [fold_left].
    apply fleb_spec in Kt. destruct Kt as (_ & Nt & Kt). rewrite key_fzero, (key_fin _ Ft) in Kt.
    destruct (isfin_cases s N) as [Fs|[->| ->]].
    - destruct (fadd_key s t Fs Ft) as [Na Ka]. apply IH; auto. rewrite Ka, <- crnd_0. apply crnd_mono. rewrite (key_fin _ Fs) in K. lra.
    - assert (E : fadd finf t = finf) by (destruct t as [b|[|]| |b m e X]; try discriminate Ft; reflexivity). rewrite E. apply IH; auto.
    - exfalso. revert K. cbn. unfold big. generalize (bpow_gt_0 radix2 1024). lra. }
  assert (LC : length (completions id evs) <= length evs).
  { clear. induction evs as [|[i t|i t] evs IH]; cbn; try lia. destruct (i =? id); cbn; lia. }
  assert (FC : Forall (fun t => isfin t = true /\ fleb fzero t = true) (completions id evs)).
  { clear -T. induction evs as [|[i t|i t] evs IH]; cbn; [constructor| |].
    - apply IH. intros; eapply T; right; eauto.
    - destruct (i =? id); [constructor; [eapply T; left; reflexivity|]|]; apply IH; intros; eapply T; right; eauto. }
  destruct (G _ fzero FC eq_refl) as [N K]; [rewrite key_fzero; lra|].
  unfold mean. set (n := Z.of_nat (length (completions id evs))).
  assert (Hn : (0 < n < 2 ^ 53)%Z). { unfold n. destruct (completions id evs); [contradiction|]. cbn [length] in *. lia. }
  destruct (fofZ_val n) as [Fn Vn]; [lia|]. set (s := fold_left fadd (completions id evs) fzero) in *.
  assert (P : (0 < B2R (fofZ n))%R) by (rewrite Vn; apply IZR_lt; lia).
  destruct (isfin_cases s N) as [Fs|[->| ->]].
  - destruct (fdiv_key s (fofZ n) Fs Fn) as [R _]; [lra|exact R].
  - destruct (fofZ n) as [b|b| |b m e X]; try discriminate Fn; [cbn in P; lra|reflexivity].
  - exfalso. revert K. cbn. unfold big. generalize (bpow_gt_0 radix2 1024). lra.
Qed.

Definition sec (z : Z) : f64 := fofZ z.
Definition ex_evs : list tev :=
  [TCall 1 (sec 0); TCall 2 (sec 1); TDone 2 (sec 4); TDone 1 (sec 9); TCall 2 (sec 9); TDone 2 (sec 20); TCall 3 (sec 2); TDone 3 (sec 9)].
Example C70_ex : et_iter (et_run ex_evs) = [1; 3; 2] /\ completed_first 1 3 ex_evs /\
  feqb (mean 1 ex_evs) (mean 3 ex_evs) = true /\ fltb (mean 3 ex_evs) (mean 2 ex_evs) = true.
Proof.
  split; [vm_compute; reflexivity|]. split; [|split; vm_compute; reflexivity].
  exists (firstn 4 ex_evs), (skipn 4 ex_evs). split; [reflexivity|]. split; [discriminate|reflexivity].
Qed.
Example C70_ex_start : et_iter (et_run ex_evs) = et_iter (et_run
  [TCall 1 (sec 8); TCall 2 (sec 3); TDone 2 (sec 4); TDone 1 (sec 9); TDone 2 (sec 20); TDone 3 (sec 9)]).
Proof. apply C70_start_irrelevant. reflexivity. Qed.

(** Refuted: the parts that take the least time come first *)
Theorem C70_fastest_refuted : ~ forall evs a b sa da sb db, a <> b ->
  filter (fun e => match e with TCall i _ | TDone i _ => i =? a end) evs = [TCall a sa; TDone a da] ->
  filter (fun e => match e with TCall i _ | TDone i _ => i =? b end) evs = [TCall b sb; TDone b db] ->
  fltb (fsub da sa) (fsub db sb) = true -> before a b (et_iter (et_run evs)).
Proof.
  intros H. specialize (H [TCall 1 (sec 0); TDone 1 (sec 100); TCall 2 (sec 200); TDone 2 (sec 201)] 2 1 (sec 200) (sec 201) (sec 0) (sec 100)).
  assert (B := H ltac:(discriminate) eq_refl eq_refl ltac:(vm_compute; reflexivity)).
  match type of B with before _ _ ?l => assert (E : l = [1; 2]) by (vm_compute; reflexivity); rewrite E in B end.
  destruct B as (l1 & l2 & E' & I). destruct l1 as [|x [|y l1]]; cbn in E'; try discriminate E'.
  - injection E' as _ <-. destruct I.
  - injection E' as _ _ E'. destruct l1; discriminate E'.
Qed.

(** ** C71: pickled objects *)
(** an attribute as seen from outside: the object's own, else the class's *)
Definition visible {V} (cls own : attrs V) (n : string) : option V :=
  match attr n own with Some v => Some v | None => attr n cls end.
Definition pickled {V} (cls own : attrs V) : attrs V := pk_setstate [] (pk_getstate (map fst cls) own).

Lemma attr_set {V} (n m : string) (v : V) a : attr n (set_attr m v a) = if String.eqb m n then Some v else attr n a.
Proof.
  induction a as [|[k w] a IH]; cbn; [reflexivity|]. destruct (String.eqb_spec k m) as [->|D]; cbn.
  - destruct (String.eqb m n); reflexivity.
  - rewrite IH. destruct (String.eqb_spec k n) as [->|D']; [|reflexivity].
    destruct (String.eqb_spec m n); [congruence|reflexivity].
Qed.
Lemma attr_notin {V} n (a : attrs V) : ~ In n (map fst a) -> attr n a = None.
Proof.
  induction a as [|[k w] a IH]; cbn; intros N; [reflexivity|]. destruct (String.eqb_spec k n); [tauto|apply IH; tauto].
Qed.
Lemma setstate_spec {V} (n : string) (st : attrs V) : NoDup (map fst st) -> forall own,
  attr n (pk_setstate own st) = match attr n st with Some v => Some v | None => attr n own end.
Proof.
  unfold pk_setstate. induction st as [|[k w] st IH]; intros N own; [reflexivity|]. cbn [map fst] in N. inversion N; subst.
  cbn [fold_left fst snd attr]. rewrite IH by assumption. rewrite attr_set. destruct (String.eqb_spec k n) as [->|D]; [|reflexivity].
  rewrite attr_notin by assumption. reflexivity.
Qed.
Lemma getstate_attr {V} (n : string) cls (own : attrs V) :
  attr n (pk_getstate cls own) = if private n || existsb (String.eqb n) cls then None else attr n own.
Proof.
  unfold pk_getstate. induction own as [|[k w] own IH]; cbn [filter attr fst].
  - destruct (private n || existsb (String.eqb n) cls); reflexivity.
  - destruct (private k || existsb (String.eqb k) cls) eqn:E; cbn [negb].
    + rewrite IH. destruct (String.eqb_spec k n) as [->|D]; [rewrite E; reflexivity|reflexivity].
    + cbn [attr]. rewrite IH. destruct (String.eqb_spec k n) as [->|D]; [rewrite E; reflexivity|reflexivity].
Qed.
Lemma pickled_attr {V} (cls own : attrs V) n : NoDup (map fst own) ->
  attr n (pickled cls own) = if private n || existsb (String.eqb n) (map fst cls) then None else attr n own.
Proof.
  intros N. unfold pickled. rewrite setstate_spec.
  - rewrite getstate_attr. destruct (private n || existsb (String.eqb n) (map fst cls)); [reflexivity|]. destruct (attr n own); reflexivity.
  - unfold pk_getstate. clear -N. induction own as [|[k w] own IH]; cbn; [constructor|]. inversion N; subst.
    destruct (negb (private k || existsb (String.eqb k) (map fst cls))); [|auto]. cbn. constructor; [|auto].
    intros I. apply H1. clear -I. induction own as [|[k' w'] own IH]; cbn in *; [contradiction|].
    destruct (negb (private k' || existsb (String.eqb k') (map fst cls))); cbn in I; tauto.
Qed.
Definition underscored (n : string) : Prop := exists m, n = String "_" m.
Lemma private_spec n : private n = true <-> underscored n.
Proof.
  destruct n as [|c m]; cbn; [split; [discriminate|intros [m X]; discriminate]|].
  destruct (Ascii.eqb_spec c "_"); split; intros H; try discriminate; subst; [exists m; reflexivity|reflexivity|].
  destruct H as [m' X]. congruence.
Qed.
(** An attribute of the object alone, not beginning with an underscore, is the same
    after pickling and unpickling; no other one of its own is left *)
Theorem C71_kept V (cls own : attrs V) n : NoDup (map fst own) ->
  (~ underscored n -> ~ In n (map fst cls) -> attr n (pickled cls own) = attr n own) /\
  (underscored n \/ In n (map fst cls) -> attr n (pickled cls own) = None).
Proof.
  intros N. rewrite (pickled_attr cls own n N). split.
  - intros U C. replace (private n) with false by (symmetry; apply not_true_is_false; intros X; apply private_spec in X; auto).
    replace (existsb (String.eqb n) (map fst cls)) with false; [reflexivity|]. symmetry. apply not_true_is_false. intros X.
    apply existsb_exists in X. destruct X as (m & I & E). apply String.eqb_eq in E. subst. auto.
  - intros [U|C]; [apply private_spec in U; rewrite U; reflexivity|].
    replace (existsb (String.eqb n) (map fst cls)) with true; [rewrite orb_true_r; reflexivity|]. symmetry. apply existsb_exists.
    exists n. split; [exact C|apply String.eqb_refl].
Qed.
(** So an attribute that hides one of the class's is lost: the class's is back *)
Theorem C71_shadow V (cls own : attrs V) n : NoDup (map fst own) -> In n (map fst cls) -> visible cls (pickled cls own) n = attr n cls.
Proof. intros N C. unfold visible. rewrite (proj2 (C71_kept V cls own n N)) by auto. reflexivity. Qed.
(** Concrete: an EvalTimer is kept as it is ... *)
Example C71_ex_timer : let own := [("k"%string, 0); ("times"%string, 1); ("Ns"%string, 2)] in
  let cls := [("__call__"%string, 9); ("__init__"%string, 9); ("__iter__"%string, 9); ("__getstate__"%string, 9)] in
  pickled cls own = own.
Proof. reflexivity. Qed.
(** ... but an Evaluator whose instance was given another driftPenalty
    (examples/thermistor.py:173) is not *)
Theorem C71_same_refuted : ~ forall (cls own : attrs nat) n, NoDup (map fst own) -> ~ underscored n ->
  visible cls (pickled cls own) n = visible cls own n.
Proof.
  intros H. specialize (H [("driftPenalty"%string, 1)] [("driftPenalty"%string, 2)] "driftPenalty"%string).
  assert (X := H ltac:(repeat constructor; auto) ltac:(intros [m E]; discriminate E)). discriminate X.
Qed.

(** ** C72: the image viewer chosen *)
(** A viewer is run exactly if it exists and every existing one before it in the list
    wrote to its standard error *)
Theorem C72_run there complains quiet file l1 p opts l2 : NoDup (map fst (l1 ++ (p, opts) :: l2)) ->
  (exists args, In (VSpawn p args) (spawn_viewer there complains quiet file (l1 ++ (p, opts) :: l2))) <->
  there p = true /\ forall q o, In (q, o) l1 -> there q = true -> complains q = true.
Proof.
  assert (NS : forall l q args, In (VSpawn q args) (spawn_viewer there complains quiet file l) -> In q (map fst l)).
  { induction l as [|[q o] l IH]; intros q' args I; cbn in I.
    - destruct quiet; [destruct I|destruct I as [I|[]]; discriminate I].
    - destruct (there q); [|right; eapply IH; exact I]. destruct I as [E|I]; [injection E as -> _; left; reflexivity|].
      destruct (complains q); [|destruct I]. apply in_app_or in I. destruct I as [I|I]; [|right; eapply IH; exact I].
      destruct quiet; [destruct I|destruct I as [I|[]]; discriminate I]. }
  intros N. induction l1 as [|[q o] l1 IH]; cbn [app map fst] in N; inversion N as [|q' r' NI N']; subst.
  - cbn [app spawn_viewer]. destruct (there p) eqn:T.
    + split; [intros _; split; [reflexivity|intros q o []]|]. intros _. eexists. left. reflexivity.
    + split; [|intros [X _]; discriminate X]. intros [args I]. apply NS in I. contradiction.
  - cbn [app spawn_viewer]. specialize (IH N').
    assert (D : q <> p) by (intros ->; apply NI; rewrite map_app; apply in_or_app; right; left; reflexivity).
    destruct (there q) eqn:T.
    + destruct (complains q) eqn:C.
      * split.
        -- intros [args [E|I]]; [injection E as E _; contradiction|]. apply in_app_or in I. destruct I as [I|I].
           ++ destruct quiet; [destruct I|destruct I as [I|[]]; discriminate I].
           ++ assert (X : exists args, In (VSpawn p args) (spawn_viewer there complains quiet file (l1 ++ (p, opts) :: l2))) by eauto.
              apply IH in X. destruct X as [X Y]. split; [exact X|]. intros q' o' [E|I'] T'; [injection E as <- <-; exact C|eauto].
        -- intros [X Y]. assert (Z : exists args, In (VSpawn p args) (spawn_viewer there complains quiet file (l1 ++ (p, opts) :: l2))).
           { apply IH. split; [exact X|]. intros q' o' I' T'. apply (Y q' o'); [right; exact I'|exact T']. }
           destruct Z as [args Z]. exists args. right. apply in_or_app. right. exact Z.
      * split.
        -- intros [args [E|[]]]. injection E as E _. contradiction.
        -- intros [_ Y]. specialize (Y q o (or_introl eq_refl) T). congruence.
    + rewrite IH. split; intros [X Y]; (split; [exact X|]).
      * intros q' o' [E|I] T'; [injection E as <- <-; congruence|eauto].
      * intros q' o' I T'. apply (Y q' o'); [right; exact I|exact T'].
Qed.
(** "No image viewer found" is said exactly if every viewer that exists wrote to its
    standard error (or none exists), unless told not to complain *)
Theorem C72_none there complains quiet file exs :
  In VNone (spawn_viewer there complains quiet file exs) <->
  quiet = false /\ forall q o, In (q, o) exs -> there q = true -> complains q = true.
Proof.
  induction exs as [|[p o] exs IH]; cbn [spawn_viewer].
  - destruct quiet; cbn; [split; [intros []|intros [X _]; discriminate X]|]. split; [|auto]. intros _. split; [reflexivity|intros q o []].
  - destruct (there p) eqn:T.
    + cbn [In]. destruct (complains p) eqn:C.
      * split.
        -- intros [X|I]; [discriminate X|]. apply in_app_or in I.
           destruct I as [I|I]; [destruct quiet; [destruct I|destruct I as [I|[]]; discriminate I]|]. apply IH in I. destruct I as [Q I].
           split; [exact Q|]. intros q o' [E|J] T'; [injection E as <- <-; exact C|eauto].
        -- intros [Q I]. right. apply in_or_app. right. apply IH. split; [exact Q|]. intros q o' J. apply (I q o'). right. exact J.
      * split; [intros [X|[]]; discriminate X|]. intros [_ I]. specialize (I p o (or_introl eq_refl) T). congruence.
    + rewrite IH. split; intros [Q I]; (split; [exact Q|]).
      * intros q o' [E|J] T'; [injection E as <- <-; congruence|eauto].
      * intros q o' J. apply (I q o'). right. exact J.
Qed.

Definition holder : text := ["{"%char; "}"%char].
Definition holds (o : text) : Prop := exists a b, o = a ++ holder ++ b.
(** the options passed: those with a place for the name of the file, with the name in it *)
Inductive passed (name : text) : list text -> list text -> Prop :=
| passed_nil : passed name [] []
| passed_not o os r : ~ holds o -> passed name os r -> passed name (o :: os) r
| passed_name a b os r : ~ holds a -> ~ holds b -> passed name os r -> passed name ((a ++ holder ++ b) :: os) ((a ++ name ++ b) :: r).
(** the part after the last slash *)
Definition last_part (prog path : text) : Prop :=
  ~ In "/"%char prog /\ (path = prog \/ exists dir, path = dir ++ ["/"%char] ++ prog).

Lemma holds_spec o : has_braces o = true <-> holds o.
Proof.
  induction o as [|c t IH].
  - split; [discriminate|]. intros (a & b & E). destruct a; discriminate E.
  - cbn [has_braces]. destruct t as [|d t'].
    + split; [discriminate|]. intros ([|x a] & b & E); [discriminate E|]. injection E as _ E. destruct a; discriminate E.
    + split.
      * intros H. apply orb_true_iff in H. destruct H as [H|H].
        -- apply andb_true_iff in H. destruct H as [H1 H2]. apply Ascii.eqb_eq in H1, H2. subst. exists [], t'. reflexivity.
        -- apply IH in H. destruct H as (a & b & E). exists (c :: a), b. cbn. rewrite E. reflexivity.
      * intros ([|x a] & b & E).
        -- injection E as -> -> _. reflexivity.
        -- injection E as _ E. apply orb_true_iff. right. apply IH. exists a, b. exact E.
Qed.
Lemma put_none name b : has_braces b = false -> put_name name b = b.
Proof.
  induction b as [|c t IH]; intros H; [reflexivity|]. cbn [has_braces put_name] in *. destruct t as [|d t']; [reflexivity|].
  apply orb_false_iff in H. destruct H as [H1 H2]. rewrite H1, IH by exact H2. reflexivity.
Qed.
Lemma put_one name a b : has_braces a = false -> put_name name (a ++ holder ++ b) = a ++ name ++ put_name name b.
Proof.
  induction a as [|c t IH]; intros H; [reflexivity|]. change (put_name name ((c :: t) ++ holder ++ b)) with
    (match t ++ holder ++ b with d :: t' => if Ascii.eqb c "{" && Ascii.eqb d "}" then name ++ put_name name t' else c :: put_name name (t ++ holder ++ b) | [] => [c] end).
  destruct t as [|d t'].
  - cbn [app holder]. change (Ascii.eqb "{" "}") with false. rewrite andb_false_r. exact (f_equal (cons c) (IH eq_refl)).
  - cbn [has_braces] in H. apply orb_false_iff in H. destruct H as [H1 H2]. cbn [app]. rewrite H1.
    exact (f_equal (cons c) (IH H2)).
Qed.
Lemma basename_spec p : last_part (basename p) p.
Proof.
  unfold basename. assert (G : forall s acc, ~ In "/"%char acc -> last_part (basename_from acc s) (acc ++ s)).
  { induction s as [|c s IH]; intros acc N; cbn [basename_from].
    - rewrite app_nil_r. split; [exact N|left; reflexivity].
    - destruct (Ascii.eqb_spec c "/") as [->|D].
      + destruct (IH [] (fun X => X)) as [N' E]. split; [exact N'|]. right. destruct E as [E|[dir E]]; cbn [app] in E.
        * exists acc. rewrite <- E. reflexivity.
        * exists (acc ++ ["/"%char] ++ dir). rewrite E at 1. rewrite <- !app_assoc. reflexivity.
      + replace (acc ++ c :: s) with ((acc ++ [c]) ++ s) by (rewrite <- app_assoc; reflexivity). apply IH.
        intros I. apply in_app_or in I. destruct I as [I|[I|[]]]; auto. }
  apply (G p []). intros [].
Qed.
(** Every viewer run is on the list, and gets its own name, options, and the file *)
Theorem C72_args there complains quiet file exs p args name : last_part name file ->
  (forall q o x, In (q, o) exs -> In x o -> forall a b, x = a ++ holder ++ b -> ~ holds a /\ ~ holds b) ->
  In (VSpawn p args) (spawn_viewer there complains quiet file exs) ->
  exists prog opts given, In (p, opts) exs /\ last_part prog p /\ passed name opts given /\ args = prog :: given ++ [file].
Proof.
  intros LN OK. assert (En : name = basename file).
  { destruct (basename_spec file) as [N2 E2]. destruct LN as [N1 E1].
    assert (U : forall a b d e, ~ In "/"%char a -> ~ In "/"%char b -> d ++ ["/"%char] ++ a = e ++ ["/"%char] ++ b -> a = b).
    { intros a b d. induction d as [|x d IH]; intros [|y e] Na Nb E; cbn in E.
      - injection E as E2'. exact E2'.
      - injection E as E1' E2'. destruct Na. rewrite E2'. apply in_or_app. right. left. reflexivity.
      - injection E as E1' E2'. destruct Nb. rewrite <- E2'. apply in_or_app. right. left. reflexivity.
      - injection E as E1' E2'. eapply IH; eauto. }
    destruct E1 as [E1|[d E1]], E2 as [E2|[e E2]].
    - congruence.
    - destruct N1. rewrite <- E1, E2. apply in_or_app. right. left. reflexivity.
    - destruct N2. rewrite <- E2, E1. apply in_or_app. right. left. reflexivity.
    - apply (U _ _ d e N1 N2). congruence. }
  subst name.
  assert (PA : forall o, (forall x, In x o -> forall a b, x = a ++ holder ++ b -> ~ holds a /\ ~ holds b) ->
    passed (basename file) o (map (put_name (basename file)) (filter has_braces o))).
  { induction o as [|x o IH]; intros H; [constructor|]. cbn [filter]. destruct (has_braces x) eqn:E.
    - apply holds_spec in E. destruct E as (a & b & ->). destruct (H _ (or_introl eq_refl) a b eq_refl) as [Na Nb].
      cbn [map]. rewrite put_one, put_none.
      + apply passed_name; auto. apply IH. intros y I. apply H. right. exact I.
      + apply not_true_is_false. intros X. apply holds_spec in X. auto.
      + apply not_true_is_false. intros X. apply holds_spec in X. auto.
    - apply passed_not; [intros X; apply holds_spec in X; congruence|]. apply IH. intros y I. apply H. right. exact I. }
  induction exs as [|[q o] exs IH]; cbn [spawn_viewer]; intros I.
  - destruct quiet; [destruct I|destruct I as [I|[]]; discriminate I].
  - assert (IH' : In (VSpawn p args) (spawn_viewer there complains quiet file exs) -> exists prog opts given,
      In (p, opts) ((q, o) :: exs) /\ last_part prog p /\ passed (basename file) opts given /\ args = prog :: given ++ [file]).
    { intros J. destruct IH as (prog & opts & given & A & B); [intros q' o' x I'; apply (OK q'); right; exact I'|exact J|].
      exists prog, opts, given. split; [right; exact A|exact B]. }
    destruct (there q); [|auto]. destruct I as [E|I].
    + injection E as <- <-. exists (basename q), o, (map (put_name (basename file)) (filter has_braces o)).
      split; [left; reflexivity|]. split; [apply basename_spec|]. split; [|reflexivity]. apply PA. intros x Ix. apply (OK q o); [left; reflexivity|exact Ix].
    + destruct (complains q); [|destruct I]. apply in_app_or in I. destruct I as [I|I]; [|auto].
      destruct quiet; [destruct I|destruct I as [I|[]]; discriminate I].
Qed.
Definition str (s : string) : text := list_ascii_of_string s.
Example C72_ex : spawn_viewer (fun _ => true) (fun p => if list_eq_dec ascii_dec p (str "/usr/bin/pqiv") then true else false) false (str "/tmp/voc.png") exlist =
  [VSpawn (str "/usr/bin/pqiv") [str "pqiv"; str "--window-title=voc.png"; str "/tmp/voc.png"]; VError (str "pqiv");
   VSpawn (str "/usr/bin/qiv") [str "qiv"; str "/tmp/voc.png"]].
Proof. vm_compute. reflexivity. Qed.
Example C72_ex_none : spawn_viewer (fun _ => false) (fun _ => false) false (str "voc.png") exlist = [VNone].
Proof. reflexivity. Qed.
(** Refuted: a viewer is run with the options listed for it *)
Theorem C72_options_refuted : ~ forall there complains quiet file exs p opts args o, In (p, opts) exs -> NoDup (map fst exs) ->
  In (VSpawn p args) (spawn_viewer there complains quiet file exs) -> In o opts -> ~ holds o -> In o args.
Proof.
  intros H. specialize (H (fun _ => true) (fun _ => true) true (str "voc.png") exlist (str "/usr/bin/qiv") [str "-Teit"] [str "qiv"; str "voc.png"] (str "-Teit")).
  assert (X : In (str "-Teit") [str "qiv"; str "voc.png"]).
  { apply H; cbn; auto.
    - repeat constructor; cbn; intuition discriminate.
    - intros X. apply holds_spec in X. discriminate X. }
  destruct X as [X|[X|[]]]; discriminate X.
Qed.

Print Assumptions C70_once.
Print Assumptions C70_order.
Print Assumptions C70_start_irrelevant.
Print Assumptions C70_number.
Print Assumptions C70_fastest_refuted.
Print Assumptions C71_kept.
Print Assumptions C71_shadow.
Print Assumptions C71_same_refuted.
Print Assumptions C72_run.
Print Assumptions C72_none.
Print Assumptions C72_args.
Print Assumptions C72_options_refuted.
