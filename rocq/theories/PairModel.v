(** * The distances by which a full history chooses the record to drop:
    ClosestPairFinder.calcerator (ade/history.py:671-740).

    HistModel.v leaves the distances open ([dist] of [orc]).  Here they are computed
    from the rows.  calcerator is run to its end at once: while it runs, its caller
    History.add holds the lock (history.py:1050-1068) which everything else
    changing rows has to take (1109, 1126). *)
From Coq Require Import List Bool Arith ZArith.
From Flocq Require Import BinarySingleNaN.
From Verif Require Import Flt Py HistModel.
Import ListNotations.

(** the order in which np.sum adds the numbers of a row, given by their positions
    (history.py:719) *)
Inductive tree : Set := Leaf (k : nat) | Node (l r : tree).
(** np.sum of a row (history.py:719) *)
Fixpoint tsum (t : tree) (l : list f64) : f64 :=
  match t with
  | Leaf k => nth k l fzero
  | Node a b => fadd (tsum a l) (tsum b l)
  end.
(** np.floor (history.py:735) *)
Definition ffloor (x : f64) : f64 := Bnearbyint mode_DN x.
(** the double nearest to 1E-20 (history.py:706) *)
Definition f1em20 : f64 := flit 6646139978924579 (-119).
(** the double nearest to 0.4 (history.py:735) *)
Definition f0_4 : f64 := flit 3602879701896397 (-53).

Section Pair.
(** np.var of a column, the order of np.sum for rows of a given length, np.exp (history.py:706, 719, 735) *)
Variable var : list f64 -> f64.
Variable order : nat -> tree.
Variable npexp : f64 -> f64.
(** the array X: SSE and values by row (history.py:588) *)
Variable X : nat -> list f64.

(** column j of XK (history.py:705) *)
Definition column (K : list nat) (j : nat) : list f64 := map (fun k => nth j (X k) fzero) K.
(** S for [nc] columns (history.py:702-707).  It is kept for the next call, but
    forgotten whenever a row is set or cleared (619, 635): so it is always that of the rows *)
Definition scaling (K : list nat) (nc : nat) : list f64 :=
  map (fun j => fdiv fone (fadd (var (column K j)) f1em20)) (seq 0 nc).
(** X, np.square, times S, np.sum (history.py:709-719) *)
Definition sumsq (S : list f64) (a b : nat) : f64 :=
  tsum (order (length S))
    (map (fun j => let d := fsub (nth j (X a) fzero) (nth j (X b) fzero) in fmul (fmul d d) (nth j S fzero)) (seq 0 (length S))).
(** self.X[k,0] (history.py:722) *)
Definition sse_of (k : nat) : f64 := nth 0 (X k) fzero.
(** divided by the mean SSE (history.py:722-723) *)
Definition scaled (S : list f64) (a b : nat) : f64 :=
  fdiv (sumsq S a b) (fdiv (fadd (sse_of a) (sse_of b)) (fofZ 2)).
(** Kn_penalty for [n] rows never in the population and [len] pairs (history.py:735) *)
Definition kn_penalty (n len : nat) : f64 :=
  fadd fone (npexp (fmul (fofZ 12) (fsub (ffloor (fdiv (fofZ (Z.of_nat n)) (fofZ (Z.of_nat len)))) f0_4))).
(** an element of D at the end, for one pair of [len] (history.py:709-736) *)
Definition pdist (S : list f64) (Kn : list nat) (len : nat) (p : nat * nat) : f64 :=
  let d := scaled S (fst p) (snd p) in
  match Kn with
  | [] => d
  | _ => fdiv d (if mem (fst p) Kn then kn_penalty (length Kn) len else fone)
  end.
(** the vector D for the pairs K1 (history.py:709-736), with [nc] columns; random
    numbers and number of calls as given *)
Definition pair_orc (nc : nat) (c : cpf) (draws : nat -> nat -> nat) (calls : nat) : orc :=
  mkOrc (fun K1 j => pdist (scaling (cK c) nc) (cKn c) (length K1) (nth j K1 (0, 0))) draws calls.
End Pair.
