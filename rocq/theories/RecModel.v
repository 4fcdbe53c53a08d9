(** * Challenges together with the history: what DifferentialEvolution.challenge
    (ade/de.py:464-563) records in Population.history (ade/population.py:526-547,
    ade/history.py:1005-1111).

    The challenges are those of ChalModel.v, the operations on the history those of HistModel.v.
    ChalModel.v takes as given whether recording a losing challenger raises; here the history
    decides.  The operations wait for the history's DeferredLock, first come, first served. *)
From Coq Require Import List Bool Arith ZArith.
From Verif Require Import Flt Py HistModel PopHModel ChalModel.
Import ListNotations.
Local Open Scope nat_scope.

Section Rec.
(** hash(i) (individual.py:189-191); the challengers, their evaluation, "<" and the option xSSE as in
    ChalModel.v; [ho n]: what the closest pair finder draws and measures in the n-th call *)
Variable hash : ind -> Z.
Variable mk : nat -> ind -> ind -> ind -> ind -> mkres ind.
Variable ev : nat -> ind -> ind -> option ind.
Variable better : ind -> ind -> bool.
Variable xSSE : bool.
Variable ho : nat -> orc.

(** challenges; history; the queue of its lock, the head having it, each operation with the
    challenge that waits for it if any (de.py:551); the challenges whose operation has ended, and
    whether it raised; what was done to the population so far (ghost)
    (de.py:464-563, history.py:881) *)
Record rc : Type := mkR { rs : st ind; rh : hist; rq : list (option nat * hop); rdone : list (nat * bool); rlog : list pop_op }.

(** add: a non-finite SSE returns at once (history.py:1049) *)
Definition req_add (c : option nat) (i : ind) (never : bool) (s : rc) : rc :=
  if isfin (iSSE i) then
    mkR (rs s) (rh s) (rq s ++ [(c, OAdd (iSSE i) i never (ho (length (rlog s))))]) (rdone s) (rlog s)
  else mkR (rs s) (rh s) (rq s) (match c with Some c => rdone s ++ [(c, false)] | None => rdone s end) (rlog s).
(** a line in the ghost log (de.py:546-552) *)
Definition note (op : pop_op) (s : rc) : rc := mkR (rs s) (rh s) (rq s) (rdone s) (rlog s ++ [op]).

(** what happens: a piece of a challenge (ChalModel.v), or the operation with the history's lock
    ends (de.py:464-563, history.py:1005-1111) *)
Inductive rev_ : Type := RC (e : event) | RH.

(** one event; None: it cannot happen (de.py:464-563, population.py:526-547, history.py:1005-1111) *)
Definition rstep (s : rc) (e : rev_) : option rc :=
  match e with
  | RC (EHistDone c) =>                               (* de.py:551-552: yield *)
    match find (fun p => fst p =? c) (rdone s) with
    | Some (_, b) =>
      match step mk ev better (fun _ => b) xSSE (rs s) (EHistDone c) with
      | Some t => Some (mkR t (rh s) (rq s) (rdone s) (rlog s))
      | None => None
      end
    | None => None
    end
  | RC (EEvalDone c) =>                               (* de.py:542-552 *)
    match step mk ev better (fun _ => false) xSSE (rs s) (EEvalDone c), nth_error (cs (rs s)) c with
    | Some t, Some (mkChal q (PEval it ch)) =>
      let s' := mkR t (rh s) (rq s) (rdone s) (rlog s) in
      match ev c it ch with
      | Some r =>
        if run (rs s) then
          if better r it then                         (* p[kt] = iChallenger, population.py:540-543 *)
            let s1 := match nth_error (pop (rs s)) (kt q) with
                      | Some prev => mkR t (rh s) (rq s ++ [(None, ONotIn prev)]) (rdone s) (rlog s)
                      | None => s'
                      end in
            Some (note (PSet (kt q) r (ho (length (rlog s)))) (req_add None r false s1))
          else if xSSE then Some s'
          else Some (note (PLose r (ho (length (rlog s)))) (req_add (Some c) r true s'))
        else Some s'
      | None => Some s'
      end
    | _, _ => None
    end
  | RC e =>
    match step mk ev better (fun _ => false) xSSE (rs s) e with
    | Some t => Some (mkR t (rh s) (rq s) (rdone s) (rlog s))
    | None => None
    end
  | RH =>
    match rq s with
    | (c, op) :: q =>
      if locked (rh s) then None else
      let (h, out) := hstep hash (rh s) op in
      let ended b := match c with Some c => rdone s ++ [(c, b)] | None => rdone s end in
      match out with
      | Ret _ => Some (mkR (rs s) h q (ended false) (rlog s))
      | Exc _ => Some (mkR (rs s) h (if locked h then rq s else q) (ended true) (rlog s))
      | Blocked => Some (mkR (rs s) h (rq s) (rdone s) (rlog s))   (* the pair sampling never ends *)
      end
    | [] => None
    end
  end.
(** a sequence of events (de.py:464-563) *)
Fixpoint rexec (s : rc) (es : list rev_) : option rc :=
  match es with
  | [] => Some s
  | e :: es => match rstep s e with Some s => rexec s es | None => None end
  end.
(** a set-up population with its history, all updates done (population.py:794-801) *)
Definition rinit (p : list ind) (h : hist) : rc := mkR (init p) h [] [] [].
End Rec.
