(** * The population's list of individuals together with its history.
    ade/population.py: __setitem__ (526-547), clear (672-686), the addIndividual
    function of setup (794-801); ade/de.py: the losing challenger's
    history.add (551-552); ade/individual.py: blacklist (244-250).

    The calls on the history are queued on its DeferredLock, first come first
    served, so the history is the result of running them one after another in
    the order of the calls (HistModel.v); [o] is what the closest pair finder
    draws and measures during an add. *)
From Coq Require Import List Bool Arith ZArith.
From Verif Require Import Flt Py HistModel.
Import ListNotations.
Local Open Scope nat_scope.

(** what the rest of the package does to a population
    (population.py:526-547, 672-686, 794-801, de.py:551-552, individual.py:244-250) *)
Inductive pop_op : Type :=
| PAppend (i : ind) (o : orc)          (* setup's addIndividual(i), population.py:794-801 *)
| PSet (k : nat) (i : ind) (o : orc)   (* p[k] = i, population.py:526-547 *)
| PLose (i : ind) (o : orc)            (* history.add(i, neverInPop=True), de.py:551-552 *)
| PBlack (k : nat)                     (* p[k].blacklist(), individual.py:244-250: the SSE becomes infinite in place *)
| PClear.                              (* clear, population.py:672-686 *)

Section Hash.
Variable hash : ind -> Z.

(** one call: the individuals, the history and the exception the caller sees.
    __setitem__ takes a non-negative index here; beyond the end of the list it
    adds the individual to the history before the list assignment raises
    (population.py:526-547) *)
Definition pop_step (s : list ind * hist) (op : pop_op) : list ind * hist * option exn :=
  let (l, h) := s in
  match op with
  | PAppend i o => (l ++ [i], hexec hash h [OAdd (iSSE i) i false o], None)
  | PSet k i o =>
    let h1 := match nth_error l k with Some prev => hexec hash h [ONotIn prev] | None => h end in
    let h2 := hexec hash h1 [OAdd (iSSE i) i false o] in
    if k <? length l then (upd k i l, h2, None) else (l, h2, Some IndexError)
  | PLose i o => (l, hexec hash h [OAdd (iSSE i) i true o], None)
  | PBlack k =>
    match nth_error l k with
    | Some i => (upd k (mkInd finf (ivals i)) l, h, None)
    | None => (l, h, Some IndexError)
    end
  | PClear => ([], hexec hash h [OClear], None)
  end.

(** several calls one after another, see the head of this file (population.py:526-547, 672-686, 794-801) *)
Fixpoint pop_exec (s : list ind * hist) (ops : list pop_op) : list ind * hist :=
  match ops with [] => s | op :: ops => pop_exec (fst (pop_step s op)) ops end.
End Hash.
