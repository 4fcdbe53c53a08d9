(** * Challenges between actual individuals: ChalModel.v instantiated with
    IndivModel.v and ParamModel.v *)
From Coq Require Import List Bool Arith Lia.
From Verif Require Import Flt Py IndivModel ParamModel ParamProofs ChalModel ChalProofs ChalLive.
Import ListNotations.

(** de.py:532-536 for challenge number [c]: F from FManager.get, the crossover
    draws, limit, then the constraints *)
Definition mk_indiv (p : pm) (cons : list constr) (CR : f64) (F : nat -> f64) (j : nat -> nat) (u : nat -> nat -> f64)
           (c : nat) (it ib i0 i1 : indiv) : mkres indiv :=
  let v := challenger p CR (j c) (u c) (F c) (ivalues it) (ivalues ib) (ivalues i0) (ivalues i1) in
  match passesConstraints (pm_names p) cons v with
  | Ok true => Candidate (mkIndiv v None None)
  | Ok false => Rejected
  | Raise _ => MkCrash
  end.

(** de.py:539-542 for challenge number [c]: [func c] is the user's function at
    that call (also given the target's SSE, for the xSSE option), [t c] the time
    it took, [P c] the population's running flag and counter at that time *)
Definition ev_indiv (func : nat -> f64 -> option (list f64) -> evalres) (t : nat -> f64) (P : nat -> evpop)
           (c : nat) (it ch : indiv) : option indiv :=
  let r := snd (evaluate (func c (ind_SSE it)) (t c) (P c) ch) in
  if ind_bool r then Some r else None.

Lemma ev_values : forall func t P c it ch r, ev_indiv func t P c it ch = Some r -> ivalues r = ivalues ch.
Proof.
  intros func t P c it ch r. unfold ev_indiv, evaluate. destruct (func c (ind_SSE it) (eval_arg (P c) ch)); simpl.
  - destruct (ind_bool _); [|discriminate]. now intros [= <-].
  - discriminate.
Qed.

(** ** predicates on individuals preserved by all executions *)
Section Pres.
Context {I : Type}.
Variable mk : nat -> I -> I -> I -> I -> mkres I.
Variable ev : nat -> I -> I -> option I.
Variable better : I -> I -> bool.
Variable histcrash : nat -> bool.
Variable xSSE : bool.
Variable Q : I -> Prop.
Hypothesis mkQ : forall c a b d e ch, Q a -> Q b -> Q d -> Q e -> mk c a b d e = Candidate ch -> Q ch.
Hypothesis evQ : forall c a ch r, Q ch -> ev c a ch = Some r -> Q r.
Definition okQ (x : chal I) : Prop :=
  match cpc x with
  | PRel it ib i0 i1 _ => Q it /\ Q ib /\ Q i0 /\ Q i1
  | PEval it ch => Q it /\ Q ch
  | _ => True
  end.
Definition QI (s : st I) : Prop := Forall Q (pop s) /\ Forall okQ (cs s).

Lemma Forall_nth_error : forall {X} (R : X -> Prop) l k x, Forall R l -> nth_error l k = Some x -> R x.
Proof. intros X R l k x F H. rewrite Forall_forall in F. apply F. eapply nth_error_In; eauto. Qed.
Lemma Forall_upd : forall {X} (R : X -> Prop) k x l, R x -> Forall R l -> Forall R (upd k x l).
Proof. intros X R k x l Hx. revert k. induction l as [|y l IH]; intros [|k] F; simpl; auto; inversion F; subst; auto. Qed.
Lemma okQ_goto : forall s c p, Forall okQ (cs s) -> (forall q, okQ (mkChal q p)) -> Forall okQ (cs (goto s c p)).
Proof.
  intros s c p F H. cbn [goto with_cs cs]. unfold set_pc. destruct (nth_error (cs s) c); auto. apply Forall_upd; auto.
Qed.
Lemma okQ_release1 : forall k s, Forall okQ (cs s) -> Forall okQ (cs (release1 k s)).
Proof.
  intros k s F. rewrite Forall_forall. intros x Hx. apply In_nth_error in Hx. destruct Hx as [d Hx]. rewrite release1_cs in Hx.
  destruct (nth_error (cs s) d) as [y|] eqn:E; [|discriminate]. assert (Hy := Forall_nth_error okQ _ _ _ F E).
  destruct (match tl (L s k) with [] => false | h :: _ => d =? h end); injection Hx as <-; auto.
  destruct y as [q p]; destruct p; auto.
Qed.
Ltac inv_opt := match goal with H : Some _ = Some _ |- _ => injection H as <- end.
Lemma QI_step : forall s e s', QI s -> step mk ev better histcrash xSSE s e = Some s' -> QI s'.
Proof.
  intros s e s' [FP FC] H.
  assert (GO : forall c p, (forall q, okQ (mkChal q p)) -> QI (goto s c p)) by (intros; split; auto; now apply okQ_goto).
  assert (RL : forall k s1, QI s1 -> QI (release1 k s1)).
  { intros k s1 [A B]. split; [now rewrite release1_pop|now apply okQ_release1]. }
  destruct e as [q|c|c|c|c|c|c| | |n]; simpl in H.
  - destruct (run s); [|discriminate]. simpl in H. destruct (okquad _ q); [|discriminate].
    destruct (prun s); inv_opt; (split; [exact FP|]); simpl; apply Forall_app; split; auto; constructor; auto; exact Logic.I.
  - destruct (nth_error (cs s) c) as [[q p]|]; [|discriminate]. destruct p as [[|]| | | | | | |]; try discriminate.
    destruct (run s); [|inv_opt; apply GO; intros; exact Logic.I].
    destruct (nth_error (pop s) (kt q)) eqn:E1; [|inv_opt; apply GO; intros; exact Logic.I].
    destruct (nth_error (pop s) (kb q)) eqn:E2; [|inv_opt; apply GO; intros; exact Logic.I].
    destruct (nth_error (pop s) (k0 q)) eqn:E3; [|inv_opt; apply GO; intros; exact Logic.I].
    destruct (nth_error (pop s) (k1 q)) eqn:E4; [|inv_opt; apply GO; intros; exact Logic.I].
    inv_opt. apply GO. intros. repeat split; simpl; eapply Forall_nth_error; eauto.
  - destruct (nth_error (cs s) c) as [[q p]|] eqn:E; [|discriminate].
    assert (O := Forall_nth_error okQ _ _ _ FC E).
    destruct p as [|[|? ?]|? ? ? ? [|? ?]| | | | |]; try discriminate; inv_opt; try apply RL; apply GO; intros; exact O || exact Logic.I.
  - destruct (nth_error (cs s) c) as [[q p]|] eqn:E; [|discriminate].
    assert (O := Forall_nth_error okQ _ _ _ FC E).
    destruct p as [| |it ib i0 i1 [|? ?]| | | | |]; try discriminate.
    destruct O as (O1 & O2 & O3 & O4). simpl in *.
    destruct (mk c it ib i0 i1) eqn:Em; inv_opt; apply GO; intros; try exact Logic.I.
    split; simpl; auto. eapply mkQ; [..|eassumption]; auto.
  - destruct (nth_error (cs s) c) as [[q p]|] eqn:E; [|discriminate].
    assert (O := Forall_nth_error okQ _ _ _ FC E).
    destruct p as [| | |it ch| | | |]; try discriminate. destruct O as [O1 O2]. simpl in *.
    assert (X : QI (goto s c PRelT)) by (apply GO; intros; exact Logic.I).
    destruct (ev c it ch) as [r|] eqn:Ee; [|inv_opt; exact X].
    destruct (run s); [|inv_opt; exact X]. destruct (better r it); inv_opt.
    + split; [apply Forall_upd; eauto|apply X].
    + destruct xSSE; [exact X|apply GO; intros; exact Logic.I].
  - destruct (nth_error (cs s) c) as [[q p]|]; [|discriminate]. destruct p; try discriminate. inv_opt.
    apply GO; intros; destruct (histcrash c); exact Logic.I.
  - destruct (nth_error (cs s) c) as [[q p]|]; [|discriminate]. destruct p; try discriminate. inv_opt. apply RL, GO. intros; exact Logic.I.
  - inv_opt. now split.
  - inv_opt. now split.
  - destruct (nth_error (abq s) n); [|discriminate]. inv_opt. apply RL. now split.
Qed.
Lemma QI_exec : forall es s s', QI s -> exec mk ev better histcrash xSSE s es = Some s' -> QI s'.
Proof.
  induction es as [|e es IH]; simpl; intros s s' F H; [now inv_opt|].
  destruct (step mk ev better histcrash xSSE s e) as [s1|] eqn:E; [|discriminate]. eapply IH; [eapply QI_step; eauto|exact H].
Qed.
End Pres.
