(** * Whole runs during which the constraints are changed
    (ade/population.py:857-874, 194-213) on top of the generation loop of
    LoopModel.v (ade/de.py:464-638).

    Population.setConstraints is for users: a callback, or the user's function,
    may call it while a run is going on.  The parameter manager then has other
    constraints, and challenge looks at those in force at that moment
    (de.py:536).  So the state has the constraints, and setting them is an event
    that may come at any time. *)
From Coq Require Import List Bool Arith.
From Verif Require Import Flt Py IndivModel ParamModel FManModel RunModel ChalModel ChalInst LoopModel.
Import ListNotations.

Section Changing.
Variables (p : pm) (CR : f64) (F : nat -> f64) (j : nat -> nat) (u : nat -> nat -> f64).
Variables (ev : nat -> indiv -> indiv -> option indiv) (better : indiv -> indiv -> bool).
Variables (histcrash : nat -> bool) (xSSE : bool) (npsin : f64 -> f64) (up0 up1 : f64) (o : opts).

(** what can happen: something in the run, or a call to setConstraints
    (population.py:857) with callables [Some f] and other things [None] *)
Inductive xevent : Type := XL (e : levent) | XSet (args : list (option constr)).
(** one event (de.py:464-638, population.py:857-874); None if it cannot happen.
    With an argument not callable the caller gets an exception, and the
    constraints stay (population.py:210-213) *)
Definition xstep (x : lst indiv * list constr) (e : xevent) : option (lst indiv * list constr) :=
  match e with
  | XL e =>
    match lstep (mk_indiv p (snd x) CR F j u) ev better histcrash xSSE npsin up0 up1 o (fst x) e with
    | Some s => Some (s, snd x)
    | None => None
    end
  | XSet args => Some (fst x, fst (setConstraints (snd x) args))
  end.
(** any sequence of events (de.py:464-638, population.py:857-874) *)
Fixpoint xexec (x : lst indiv * list constr) (es : list xevent) : option (lst indiv * list constr) :=
  match es with
  | [] => Some x
  | e :: es => match xstep x e with Some x' => xexec x' es | None => None end
  end.
End Changing.

(** a run on a set-up population, with the constraints it has then (de.py:670-683) *)
Definition xstart (o : opts) (l : list indiv) (cons : list constr) (fm : fman) (sc : score) : lst indiv * list constr :=
  (linit o l fm sc, cons).
