(** * Whole runs in which report callbacks complain about individuals
    (ade/report.py:117-192, ade/individual.py:244-250) on top of the generation
    loop of LoopModel.v (ade/de.py:464-638).

    A complaint changes an individual in place, wherever it is referred to: in
    its slot of the population and as target of a challenge that is waiting for
    an evaluation.  So individuals are objects here, and the state has the
    objects complained about.  Which individual the reporter announces and what
    the callbacks do with it is in RepModel.v; here a complaint about any
    individual that has been evaluated may come at any time. *)
From Coq Require Import List Bool Arith.
From Verif Require Import Flt Py IndivModel ParamModel FManModel RunModel ChalModel ChalInst LoopModel.
Import ListNotations.

(** an individual: its identity, and its values and SSE as evaluated
    (individual.py:92-121) *)
Record obj : Type := mkObj { oid : nat; oind : indiv }.
(** the individual as it is after complaints about the objects [B]: blacklist
    (individual.py:244-250, called at report.py:183) sets its SSE to infinity.
    The cache KS which it also deletes is in RankModel.v *)
Definition look (B : list nat) (x : obj) : indiv :=
  if existsb (Nat.eqb (oid x)) B then ind_blacklist (oind x) else oind x.

Section Complaints.
Variables (p : pm) (cons : list constr) (CR : f64) (F : nat -> f64) (j : nat -> nat) (u : nat -> nat -> f64).
(** [func c] is the user's function at the call made by challenge [c]: with the
    xSSE option it has been given the target's SSE as it was then (de.py:539-540) *)
Variables (func : nat -> option (list f64) -> evalres) (t : nat -> f64) (PS : nat -> evpop).
Variables (histcrash : nat -> bool) (xSSE : bool) (npsin : f64 -> f64) (up0 up1 : f64) (o : opts).
(** the population's size (its first members are objects 0 to n-1) *)
Variable n : nat.

(** de.py:532-536: a new object; complaints do not change values, so they have
    no influence here *)
Definition mk_obj (c : nat) (it ib i0 i1 : obj) : mkres obj :=
  match mk_indiv p cons CR F j u c (oind it) (oind ib) (oind i0) (oind i1) with
  | Candidate i => Candidate (mkObj (n + c) i)
  | Rejected => Rejected
  | MkCrash => MkCrash
  end.
(** de.py:539-542; evaluation changes the challenger in place *)
Definition ev_obj (c : nat) (it ch : obj) : option obj :=
  option_map (mkObj (n + c)) (ev_indiv (fun c _ => func c) t PS c (oind it) (oind ch)).
(** iChallenger < iTarget (de.py:543), with the SSEs both have now *)
Definition better_now (B : list nat) (r it : obj) : bool := ind_lt (look B r) (look B it).

(** whether the evaluation of challenge [c] is over, or there will be none (de.py:536, 542) *)
Definition evaluated (s : st obj) (c : nat) : bool :=
  match nth_error (cs s) c with
  | Some x => match cpc x with PHist | PRelT | PDone | PFail => true | _ => false end
  | None => false
  end.

(** what can happen: something in the run, or the complaint about object [k]
    takes effect (report.py:183) *)
Inductive cevent : Set := CL (e : levent) | CBlack (k : nat).
(** one event (report.py:171-185, de.py:464-638); None if it cannot happen *)
Definition cstep (x : lst obj * list nat) (e : cevent) : option (lst obj * list nat) :=
  match e with
  | CL e =>
    match lstep mk_obj ev_obj (better_now (snd x)) histcrash xSSE npsin up0 up1 o (fst x) e with
    | Some s => Some (s, snd x)
    | None => None
    end
  | CBlack k => if (k <? n) || evaluated (lch (fst x)) (k - n) then Some (fst x, k :: snd x) else None
  end.
(** any sequence of events (report.py:117-192, de.py:464-638) *)
Fixpoint cexec (x : lst obj * list nat) (es : list cevent) : option (lst obj * list nat) :=
  match es with
  | [] => Some x
  | e :: es => match cstep x e with Some x' => cexec x' es | None => None end
  end.
End Complaints.

(** the individuals that setup has left (population.py:740-846) as objects *)
Definition objects (l : list indiv) : list obj := map (fun x => mkObj (fst x) (snd x)) (combine (seq 0 (length l)) l).
(** a run on a set-up population, nobody having complained yet (de.py:670-683) *)
Definition cstart (o : opts) (l : list indiv) (fm : fman) (sc : score) : lst obj * list nat := (linit o (objects l) fm sc, []).
