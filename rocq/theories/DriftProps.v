(** * Properties C77-C79: how challengers are made from their parents, and what
    that means for whole runs. *)
From Coq Require Import String Ascii List Bool Arith ZArith Reals Lra Lia.
From Flocq Require Import Core BinarySingleNaN.
From Verif Require Import Flt FltMore Py IndivModel ParamModel ParamProofs ParamProps ChalModel ChalProofs ChalLive ChalInst ChalProps.
Import ListNotations.
Open Scope R_scope.

(** ** C77 *)
(** base + (i0 - i1)*F with the operators of Individual: new individual without
    SSE, calculated position by position *)
Theorem C77_operators : forall ib i0 i1 F k b x y,
  nth_error (ivalues ib) k = Some b -> nth_error (ivalues i0) k = Some x -> nth_error (ivalues i1) k = Some y ->
  let m := ind_add ib (ind_mul (ind_sub i0 i1) F) in
  nth_error (ivalues m) k = Some (fadd b (fmul (fsub x y) F)) /\ istored m = None /\
  (length (ivalues i0) = length (ivalues ib) -> length (ivalues i1) = length (ivalues ib) -> length (ivalues m) = length (ivalues ib)).
Proof.
  intros ib i0 i1 F k b x y B X Y m. subst m. split; [| split; [reflexivity|]].
  - exact (mutate_nth _ _ _ F _ _ _ _ B X Y).
  - intros L0 L1. apply mutate_length; congruence.
Qed.
(** the challenger's value at each position *)
Theorem C77_value : forall p CR j u F vt vb v0 v1 k t b x y lo hi,
  nth_error vt k = Some t -> nth_error vb k = Some b -> nth_error v0 k = Some x -> nth_error v1 k = Some y ->
  nth_error (pm_mins p) k = Some lo -> nth_error (pm_maxs p) k = Some hi ->
  let m := fadd b (fmul (fsub x y) F) in
  exists c, nth_error (challenger p CR j u F vt vb v0 v1) k = Some c /\
  (* from the target *)
  (k <> j -> fltb CR (u k) = true -> fleb lo t = true -> fleb t hi = true -> feqb c t = true) /\
  (* from the mutant, which is inside the bounds *)
  (k = j \/ fltb CR (u k) = false -> fleb lo m = true -> fleb m hi = true -> feqb c m = true) /\
  (* from the mutant, which is below or above: mirrored *)
  (k = j \/ fltb CR (u k) = false -> okbound lo -> okbound hi -> isfin m = true -> fltb m lo = true ->
     2 * B2R lo - B2R m <= B2R hi -> B2R c = rnd (2 * B2R lo - B2R m)) /\
  (k = j \/ fltb CR (u k) = false -> okbound lo -> okbound hi -> fleb lo hi = true -> isfin m = true -> fltb hi m = true ->
     B2R lo <= 2 * B2R hi - B2R m -> B2R c = rnd (2 * B2R hi - B2R m)).
Proof.
  intros p CR j u F vt vb v0 v1 k t b x y lo hi T B X Y L H m.
  eexists. split.
  - unfold challenger, pm_limit. apply (map3_nth _ _ _ _ _ _ _ _ L H (crossover_nth CR j u _ _ k _ _ T (mutate_nth _ _ _ F _ _ _ _ B X Y))).
  - fold m.
    assert (G : k = j \/ fltb CR (u k) = false -> (if Nat.eqb k j then m else if fltb CR (u k) then t else m) = m).
    { intros [-> | ->]; [now rewrite Nat.eqb_refl | now destruct (Nat.eqb k j)]. }
    split; [| split; [| split]].
    + intros N C A1 A2. apply Nat.eqb_neq in N. rewrite N, C. now apply C01_inside_unchanged.
    + intros C A1 A2. rewrite (G C). now apply C01_inside_unchanged.
    + intros C O1 O2 FM A1 A2. rewrite (G C). now apply C01_mirror_low.
    + intros C O1 O2 A0 FM A1 A2. rewrite (G C). now apply C01_mirror_high.
Qed.
Example C77_case : let c := challenger ex_pm fone 0 (fun _ => fzero) (flit 1 (-1)) [fzero; fone] [fofZ 4; fofZ 2] [fofZ 5; fofZ 9] [fofZ (-3); fone] in
  map ftrunc c = [2; 6]%Z.
Proof. vm_compute. reflexivity. Qed.

Lemma fin_zero : forall z, isnan z = false -> key z = 0 -> isfin z = true /\ B2R z = 0.
Proof.
  intros z N K. pose proof big_pos. assert (F : isfin z = true) by (apply fin_key; [assumption | lra]).
  split; [assumption|]. now rewrite <- (key_fin z F).
Qed.
Lemma add_zero : forall b z, isfin b = true -> isnan z = false -> key z = 0 -> feqb (fadd b z) b = true.
Proof.
  intros b z FB N K. destruct (fin_zero z N K) as [FZ RZ]. destruct (fadd_key b z FB FZ) as [N2 K2].
  apply feqb_spec. repeat split; [assumption | now apply nan_fin |]. rewrite K2, RZ, Rplus_0_r, crnd_B2R. symmetry. now apply key_fin.
Qed.
(** equal difference parents, or F = 0: the mutant is the base *)
Theorem C77_no_difference : forall b x y F, isfin b = true -> isfin x = true -> isfin y = true -> isfin F = true ->
  feqb x y = true -> feqb (fadd b (fmul (fsub x y) F)) b = true.
Proof.
  intros b x y F FB FX FY FF E. apply feqb_spec in E. destruct E as (_ & _ & E). rewrite !key_fin in E by assumption.
  destruct (fsub_key x y FX FY) as [N K]. rewrite E, Rminus_diag_eq, crnd_0 in K by reflexivity.
  destruct (fin_zero _ N K) as [FZ RZ]. destruct (fmul_key _ F FZ FF) as [N2 K2]. rewrite RZ, Rmult_0_l, crnd_0 in K2. now apply add_zero.
Qed.
Theorem C77_zero_F : forall b x y F, isfin b = true -> isfin (fsub x y) = true -> feqb F fzero = true ->
  feqb (fadd b (fmul (fsub x y) F)) b = true.
Proof.
  intros b x y F FB FD E. apply feqb_spec in E. destruct E as (N & _ & E). rewrite key_fzero in E. destruct (fin_zero F N E) as [FF RF].
  destruct (fmul_key _ F FD FF) as [N2 K2]. rewrite RF, Rmult_0_r, crnd_0 in K2. now apply add_zero.
Qed.
Example C77_no_difference_case : isfin (fofZ 3) = true /\ feqb (fofZ 3) (fofZ 3) = true /\ feqb fnzero fzero = true.
Proof. repeat split. Qed.

(** ** C78 *)
(** individual i has value v for parameter k *)
Definition has (k : nat) (v : f64) (i : indiv) : Prop := exists w, nth_error (ivalues i) k = Some w /\ feqb w v = true.
Lemma feqb_trans : forall a b c, feqb a b = true -> feqb b c = true -> feqb a c = true.
Proof. intros a b c A B. apply feqb_spec in A, B. apply feqb_spec. intuition congruence. Qed.
Lemma feqb_sym : forall a b, feqb a b = true -> feqb b a = true.
Proof. intros a b A. apply feqb_spec in A. apply feqb_spec. intuition congruence. Qed.
Lemma feqb_fin : forall a b, isfin b = true -> feqb a b = true -> isfin a = true.
Proof.
  intros a b F E. apply feqb_spec in E. destruct E as (N & _ & E). pose proof (fin_bound b). rewrite (key_fin b F) in E.
  apply fin_key; [assumption | now rewrite E].
Qed.
Lemma feqb_fleb : forall a b, feqb a b = true -> fleb a b = true /\ fleb b a = true.
Proof. intros a b E. apply feqb_spec in E. destruct E as (N1 & N2 & E). split; apply fleb_spec; repeat split; auto; lra. Qed.

Lemma challenger_has : forall p CR j u F it ib i0 i1 k v lo hi, isfin F = true -> isfin v = true ->
  nth_error (pm_mins p) k = Some lo -> nth_error (pm_maxs p) k = Some hi -> fleb lo v = true -> fleb v hi = true ->
  has k v it -> has k v ib -> has k v i0 -> has k v i1 ->
  exists w, nth_error (challenger p CR j u F (ivalues it) (ivalues ib) (ivalues i0) (ivalues i1)) k = Some w /\ feqb w v = true.
Proof.
  intros p CR j u F it ib i0 i1 k v lo hi FF FV L H V1 V2 (t & T & ET) (b & B & EB) (x & X & EX) (y & Y & EY).
  destruct (C77_value p CR j u F _ _ _ _ k t b x y lo hi T B X Y L H) as (c & C & C1 & C2 & _).
  exists c. split; [exact C|].
  assert (M : feqb (fadd b (fmul (fsub x y) F)) v = true).
  { apply feqb_trans with b; [| exact EB]. apply C77_no_difference; eauto using feqb_fin. eapply feqb_trans; [exact EX | now apply feqb_sym]. }
  destruct (Nat.eq_dec k j) as [E | E]; [| destruct (fltb CR (u k)) eqn:EC].
  - apply feqb_trans with (fadd b (fmul (fsub x y) F)); [apply (C2 (or_introl E) (fleb_trans _ _ _ V1 (proj2 (feqb_fleb _ _ M))) (fleb_trans _ _ _ (proj1 (feqb_fleb _ _ M)) V2)) | exact M].
  - apply feqb_trans with t; [apply (C1 E eq_refl (fleb_trans _ _ _ V1 (proj2 (feqb_fleb _ _ ET))) (fleb_trans _ _ _ (proj1 (feqb_fleb _ _ ET)) V2)) | exact ET].
  - apply feqb_trans with (fadd b (fmul (fsub x y) F)); [apply (C2 (or_intror eq_refl) (fleb_trans _ _ _ V1 (proj2 (feqb_fleb _ _ M))) (fleb_trans _ _ _ (proj1 (feqb_fleb _ _ M)) V2)) | exact M].
Qed.

Local Ltac inv_opt := match goal with H : Some _ = Some _ |- _ => injection H as <- end.
(** what holds of every candidate made holds of everything under evaluation *)
Section Evaluated.
Context {I : Type}.
Variables (mk : nat -> I -> I -> I -> I -> mkres I) (ev : nat -> I -> I -> option I) (better : I -> I -> bool).
Variables (histcrash : nat -> bool) (xSSE : bool) (P : I -> Prop).
Hypothesis mkP : forall c a b d e ch, mk c a b d e = Candidate ch -> P ch.
Definition okE (x : chal I) : Prop := match cpc x with PEval _ ch => P ch | _ => True end.
Lemma okE_goto : forall (s : st I) c pc, Forall okE (cs s) -> (forall q, okE (mkChal q pc)) -> Forall okE (cs (goto s c pc)).
Proof.
  intros s c pc H H1. rewrite Forall_forall. intros x Hx. apply In_nth_error in Hx. destruct Hx as [d Hx]. rewrite goto_cs in Hx.
  destruct (Nat.eqb d c).
  - destruct (nth_error (cs s) c); [| discriminate]. injection Hx as <-. apply H1.
  - exact (Forall_nth_error _ _ _ _ H Hx).
Qed.
Lemma okE_release1 : forall k s, Forall okE (cs s) -> Forall okE (cs (release1 k s)).
Proof.
  intros k s H. rewrite Forall_forall. intros x Hx. apply In_nth_error in Hx. destruct Hx as [d Hx]. rewrite release1_cs in Hx.
  destruct (nth_error (cs s) d) as [y|] eqn:E; [|discriminate]. assert (Hy := Forall_nth_error okE _ _ _ H E).
  destruct (match tl (L s k) with [] => false | h :: _ => Nat.eqb d h end); injection Hx as <-; auto.
  destruct y as [q pc]; destruct pc; auto.
Qed.
Lemma okE_step : forall s e s', Forall okE (cs s) -> step mk ev better histcrash xSSE s e = Some s' -> Forall okE (cs s').
Proof.
  intros s e s' FC H.
  assert (GO : forall c pc, (forall q, okE (mkChal q pc)) -> Forall okE (cs (goto s c pc))) by (intros; now apply okE_goto).
  destruct e as [q|c|c|c|c|c|c| | |n]; simpl in H.
  - destruct (run s); [|discriminate]. simpl in H. destruct (okquad _ q); [|discriminate].
    destruct (prun s); inv_opt; simpl; apply Forall_app; split; auto; constructor; auto; exact Logic.I.
  - destruct (nth_error (cs s) c) as [[q pc]|]; [|discriminate]. destruct pc as [[|]| | | | | | |]; try discriminate.
    destruct (run s); [|inv_opt; apply GO; intros; exact Logic.I].
    destruct (nth_error (pop s) (kt q)) eqn:E1; [|inv_opt; apply GO; intros; exact Logic.I].
    destruct (nth_error (pop s) (kb q)) eqn:E2; [|inv_opt; apply GO; intros; exact Logic.I].
    destruct (nth_error (pop s) (k0 q)) eqn:E3; [|inv_opt; apply GO; intros; exact Logic.I].
    destruct (nth_error (pop s) (k1 q)) eqn:E4; inv_opt; apply GO; intros; exact Logic.I.
  - destruct (nth_error (cs s) c) as [[q pc]|] eqn:E; [|discriminate].
    destruct pc as [|[|? ?]|? ? ? ? [|? ?]| | | | |]; try discriminate; inv_opt; try apply okE_release1; apply GO; intros; exact Logic.I.
  - destruct (nth_error (cs s) c) as [[q pc]|] eqn:E; [|discriminate].
    destruct pc as [| |it ib i0 i1 [|? ?]| | | | |]; try discriminate.
    destruct (mk c it ib i0 i1) eqn:Em; inv_opt; apply GO; intros; try exact Logic.I. exact (mkP _ _ _ _ _ _ Em).
  - destruct (nth_error (cs s) c) as [[q pc]|] eqn:E; [|discriminate].
    destruct pc as [| | |it ch| | | |]; try discriminate.
    destruct (ev c it ch) as [r|] eqn:Ee; [|inv_opt; apply GO; intros; exact Logic.I].
    destruct (run s); [|inv_opt; apply GO; intros; exact Logic.I]. destruct (better r it); inv_opt.
    + cbn [cs]. apply GO. intros; exact Logic.I.
    + destruct xSSE; apply GO; intros; exact Logic.I.
  - destruct (nth_error (cs s) c) as [[q pc]|]; [|discriminate]. destruct pc; try discriminate. inv_opt.
    apply GO; intros; destruct (histcrash c); exact Logic.I.
  - destruct (nth_error (cs s) c) as [[q pc]|]; [|discriminate]. destruct pc; try discriminate. inv_opt. apply okE_release1, GO. intros; exact Logic.I.
  - inv_opt. exact FC.
  - inv_opt. exact FC.
  - destruct (nth_error (abq s) n); [|discriminate]. inv_opt. apply okE_release1. exact FC.
Qed.
Lemma okE_exec : forall es s s', Forall okE (cs s) -> exec mk ev better histcrash xSSE s es = Some s' -> Forall okE (cs s').
Proof.
  induction es as [|e es IH]; simpl; intros s s' H E; [now inv_opt|].
  destruct (step mk ev better histcrash xSSE s e) as [s1|] eqn:E1; [|discriminate]. eapply IH; [eapply okE_step; eauto|exact E].
Qed.
End Evaluated.

Section Actual.
Variables (p : pm) (cons : list constr) (CR : f64) (F : nat -> f64) (j : nat -> nat) (u : nat -> nat -> f64).
Variables (func : nat -> f64 -> option (list f64) -> evalres) (t : nat -> f64) (PS : nat -> evpop).
Variables (histcrash : nat -> bool) (xSSE : bool).
Notation mkI := (mk_indiv p cons CR F j u).
Notation evI := (ev_indiv func t PS).
Notation iexec := (exec mkI evI ind_lt histcrash xSSE).

(** a parameter which all members of the population have in common never changes
    again, nor does any challenger try another value *)
Theorem C78_agreement_is_permanent : forall k v lo hi p0 es s, (forall c, isfin (F c) = true) ->
  nth_error (pm_mins p) k = Some lo -> nth_error (pm_maxs p) k = Some hi -> isfin v = true -> fleb lo v = true -> fleb v hi = true ->
  (forall i, In i p0 -> has k v i) -> iexec (init p0) es = Some s ->
  (forall i, In i (pop s) -> has k v i) /\
  (forall c q it ch, nth_error (cs s) c = Some (mkChal q (PEval it ch)) -> has k v ch).
Proof.
  intros k v lo hi p0 es s FF L H FV V1 V2 H0 E.
  assert (X : QI (has k v) s).
  { eapply QI_exec; [| |split|exact E].
    - intros c a b d e ch Ha Hb Hd He. unfold mk_indiv. destruct (passesConstraints _ _ _) as [[|]|]; try discriminate.
      intros [= <-]. unfold has. cbn [ivalues]. eapply challenger_has; eauto.
    - intros c a ch r Hc Hr. unfold has. now rewrite (ev_values _ _ _ _ _ _ _ Hr).
    - simpl. now apply Forall_forall.
    - constructor. }
  destruct X as [X1 X2]. split.
  - now apply Forall_forall.
  - intros c q it ch Ec. apply (Forall_nth_error _ _ _ _ X2 Ec).
Qed.

(** ** C79 *)
(** every challenger that is evaluated passes the constraints, and if the first
    population did so does every later one *)
Theorem C79_constraints : forall p0 es s, iexec (init p0) es = Some s ->
  (forall c q it ch, nth_error (cs s) c = Some (mkChal q (PEval it ch)) -> passesConstraints (pm_names p) cons (ivalues ch) = Ok true) /\
  ((forall i, In i p0 -> passesConstraints (pm_names p) cons (ivalues i) = Ok true) ->
   forall i, In i (pop s) -> passesConstraints (pm_names p) cons (ivalues i) = Ok true).
Proof.
  intros p0 es s E. split.
  - intros c q it ch Ec.
    assert (X : Forall (okE (fun i => passesConstraints (pm_names p) cons (ivalues i) = Ok true)) (cs s)).
    { eapply okE_exec; [| | exact E].
      - intros c' a b d e ch'. unfold mk_indiv. destruct (passesConstraints _ _ _) as [[|]|] eqn:P; try discriminate.
        intros [= <-]. exact P.
      - constructor. }
    exact (Forall_nth_error _ _ _ _ X Ec).
  - intros H0. assert (X : QI (fun i => passesConstraints (pm_names p) cons (ivalues i) = Ok true) s).
    { eapply QI_exec; [| |split|exact E].
      - intros c a b d e ch _ _ _ _. unfold mk_indiv. destruct (passesConstraints _ _ _) as [[|]|] eqn:P; try discriminate.
        intros [= <-]. exact P.
      - intros c a ch r Hc Hr. now rewrite (ev_values _ _ _ _ _ _ _ Hr).
      - simpl. now apply Forall_forall.
      - constructor. }
    destruct X as [X1 _]. now apply Forall_forall.
Qed.
End Actual.

(** a population of four agreeing in the second parameter, and a challenge in it *)
Definition dpop : list indiv := map (fun z => mkIndiv [fofZ z; fofZ 7] (Some fone) None) [1; 2; 3; 4]%Z.
Definition dfunc (c : nat) (x : f64) (a : option (list f64)) : evalres := EvSSE (Some fzero).
Definition dcons : list constr := [fun d => Ok (Nat.eqb (List.length d) 2)].
#[local] Arguments fofZ : simpl never.
Definition dexec := exec (mk_indiv ex_pm dcons fone (fun _ => flit 1 (-1)) (fun _ => 0%nat) (fun _ _ => fzero)) (ev_indiv dfunc (fun _ => fzero) (fun _ => mkEvpop (Some true) 0))
  ind_lt (fun _ => false) false (init dpop).
Definition des : list event := [ERequest (mkQuad 0 1 2 3); EResume 0; ERelease 0; ERelease 0; ERelease 0; EMutate 0; EEvalDone 0]%nat.
Example C78_case : (forall i, In i dpop -> has 1 (fofZ 7) i) /\ option_map (fun s => map (fun i => (map ftrunc (ivalues i), ftrunc (ind_SSE i))) (pop s)) (dexec des) =
    Some [([1; 7], 0); ([2; 7], 1); ([3; 7], 1); ([4; 7], 1)]%Z.
Proof.
  split.
  - intros i Hi. unfold dpop in Hi; cbn [map In] in Hi. destruct Hi as [<- | [<- | [<- | [<- | []]]]]; (eexists; split; [reflexivity | vm_compute; reflexivity]).
  - vm_compute. reflexivity.
Qed.
Example C79_case : (forall i, In i dpop -> passesConstraints (pm_names ex_pm) dcons (ivalues i) = Ok true) /\ match dexec (firstn 6 des) with Some s => match nth_error (cs s) 0 with Some (mkChal _ (PEval _ ch)) => map ftrunc (ivalues ch) = [1; 7]%Z | _ => False end | None => False end.
Proof.
  split.
  - intros i Hi. unfold dpop in Hi; cbn [map In] in Hi. destruct Hi as [<- | [<- | [<- | [<- | []]]]]; reflexivity.
  - vm_compute. reflexivity.
Qed.
Print Assumptions C77_operators. Print Assumptions C77_value. Print Assumptions C77_no_difference. Print Assumptions C77_zero_F.
Print Assumptions C78_agreement_is_permanent. Print Assumptions C79_constraints.
