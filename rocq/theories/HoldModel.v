(** * Several parameter managers and the objects their constraints are kept in:
    ParameterManager.__init__, setConstraints and passesConstraints of
    ade/population.py:78-87, 194-234.

    Unlike ParamModel.v this tells lists apart that have equal items: a manager
    keeps the very object it was constructed with, and all managers constructed
    without constraints keep the one default list. *)
From Coq Require Import String List Bool Arith.
From Verif Require Import Flt Py ParamModel.
Import ListNotations.
Local Open Scope nat_scope.

(** an item of a sequence of constraints: a callable, or None for something that
    is not callable (population.py:211, 231) *)
Definition item : Type := option constr.
(** what is given as [constraints] (population.py:78): nothing, something without
    __iter__, a list or an iterator of the caller's, or a tuple *)
Inductive arg : Type := ADefault | AOne (f : item) | AList (k : nat) | ATuple (l : list item) | AIter (k : nat).
(** what a manager's attribute [constraints] is (population.py:85-86, 213): a list
    or an iterator, which exist elsewhere too, or a tuple *)
Inductive held : Type := HList (a : nat) | HTuple (l : list item) | HIter (k : nat).
(** a manager; bounds have no part in this (population.py:78-87) *)
Record mgr : Type := mkMgr { m_names : list string; m_held : held }.
(** all lists, the first being the default of population.py:78; which of them the
    caller has made; what iterators have left; managers *)
Record world : Type := mkW { lists : list (list item); mine : list nat; iters : list (list item); mgrs : list mgr }.
(** when population.py has been imported (population.py:78) *)
Definition w0 : world := mkW [[]] [] [] [].

(** [notseq] (util.py:50-54) decides whether a list is made around it
    (population.py:85-86).  Result: the lists, and what is kept; None if the caller
    has no such list or iterator *)
Definition hold (w : world) (a : arg) : option (list (list item) * held) :=
  match a with
  | ADefault => Some (lists w, HList 0)
  | AOne f => Some (lists w ++ [[f]], HList (length (lists w)))
  | AList k => match nth_error (mine w) k with Some x => Some (lists w, HList x) | None => None end
  | ATuple l => Some (lists w, HTuple l)
  | AIter k => if k <? length (iters w) then Some (lists w, HIter k) else None
  end.
(** the loop population.py:230-234: the answer, and what an iterator would have left *)
Fixpoint ask (l : list item) (d : pdict) : res bool * list item :=
  match l with
  | [] => (Ok true, [])
  | None :: t => (Raise TypeError, t)
  | Some f :: t =>
    match f d with
    | Raise e => (Raise e, t)
    | Ok false => (Ok false, t)
    | Ok true => ask t d
    end
  end.
(** xs[k] = x, as list.append and the use of an iterator change an object in place
    (population.py:230) *)
Fixpoint put {A} (k : nat) (x : A) (l : list A) : list A :=
  match l, k with
  | [], _ => []
  | _ :: t, 0 => x :: t
  | y :: t, S k => y :: put k x t
  end.

(** what the caller does (population.py:78, 194, 215, 857) *)
Inductive op : Type :=
| OList (l : list item)                      (** makes a list *)
| OIter (l : list item)                      (** makes an iterator, e.g. a generator *)
| OMake (names : list string) (nb : nat) (a : arg)  (** ParameterManager(names, bounds, constraints) *)
| OSet (m : nat) (args : list item)          (** setConstraints of a manager or its population *)
| OAppend (k : nat) (f : item)               (** appends to a list of its own *)
| OExtend (m : nat) (f : item)               (** appends to a manager's attribute *)
| OCheck (m : nat) (values : list f64).      (** passesConstraints *)
(** what comes of it (population.py:79-81, 212, 226-234) *)
Inductive out : Type := Done | Failed (e : exn) | Answer (r : res bool).

(** all items that a manager has now (population.py:230) *)
Definition items (w : world) (h : held) : list item :=
  match h with
  | HList a => nth a (lists w) []
  | HTuple l => l
  | HIter k => nth k (iters w) []
  end.

(** one operation (population.py:78-87, 194-234, 857-874); None if there is no such
    object *)
Definition hstep (w : world) (o : op) : option (world * out) :=
  match o with
  | OList l => Some (mkW (lists w ++ [l]) (mine w ++ [length (lists w)]) (iters w) (mgrs w), Done)
  | OIter l => Some (mkW (lists w) (mine w) (iters w ++ [l]) (mgrs w), Done)
  | OMake names nb a =>
    match hold w a with
    | None => None
    | Some (ls, h) =>
      (* population.py:79-81 comes first *)
      if nb =? length names then Some (mkW ls (mine w) (iters w) (mgrs w ++ [mkMgr names h]), Done)
      else Some (w, Failed ValueError)
    end
  | OSet m args =>
    match nth_error (mgrs w) m with
    | None => None
    | Some x =>
      if forallb (fun f : item => match f with Some _ => true | None => false end) args
      then Some (mkW (lists w ++ [args]) (mine w) (iters w) (put m (mkMgr (m_names x) (HList (length (lists w)))) (mgrs w)), Done)
      else Some (w, Failed ValueError)
    end
  | OAppend k f =>
    match nth_error (mine w) k with
    | None => None
    | Some a => Some (mkW (put a (nth a (lists w) [] ++ [f]) (lists w)) (mine w) (iters w) (mgrs w), Done)
    end
  | OExtend m f =>
    match nth_error (mgrs w) m with
    | None => None
    | Some x =>
      match m_held x with
      | HList a => Some (mkW (put a (nth a (lists w) [] ++ [f]) (lists w)) (mine w) (iters w) (mgrs w), Done)
      | _ => Some (w, Failed AttributeError)
      end
    end
  | OCheck m values =>
    match nth_error (mgrs w) m with
    | None => None
    | Some x =>
      let d := mk_params (m_names x) values in
      match m_held x with
      | HIter k =>
        (* an iterator is true (population.py:226) and is used up *)
        let (r, l) := ask (nth k (iters w) []) d in
        Some (mkW (lists w) (mine w) (put k l (iters w)) (mgrs w), Answer r)
      | h => match items w h with
             | [] => Some (w, Answer (Ok true))
             | l => Some (w, Answer (fst (ask l d)))
             end
      end
    end
  end.
(** a sequence of operations (population.py:78-87, 194-234, 857-874) and what came of each *)
Fixpoint hrun (w : world) (os : list op) : option (world * list out) :=
  match os with
  | [] => Some (w, [])
  | o :: os =>
    match hstep w o with
    | None => None
    | Some (w, x) => match hrun w os with Some (w, xs) => Some (w, x :: xs) | None => None end
    end
  end.
