(** * Model of individuals as mappings from names to values, and of the arrays they
    keep their values in (ade/individual.py). *)
From Coq Require Import Bool Arith ZArith String List.
From Verif Require Import Flt Py ParamModel.
Import ListNotations.
Local Open Scope nat_scope.

(** ** Reading, writing and iterating (individual.py:102-111, 153-173) *)
(** an item key: a python int (or bool), a name, or anything else (a numpy integer,
    say), which is equal to no name (individual.py:153-166) *)
Inductive key : Type := KInt (z : Z) | KName (n : string) | KOther.

(** position of an index in an array of [n] values, counted from the end if negative
    (individual.py:160, 166) *)
Definition pos (n : nat) (z : Z) : res nat :=
  if Z.leb 0 z then (if Z.ltb z (Z.of_nat n) then Ok (Z.to_nat z) else Raise IndexError)
  else if Z.leb (- Z.of_nat n) z then Ok (Z.to_nat (Z.of_nat n + z)) else Raise IndexError.
(** self.values[k] (individual.py:160) *)
Definition item {A} (l : list A) (z : Z) : res A :=
  bind (pos (length l) z) (fun k => match nth_error l k with Some v => Ok v | None => Raise IndexError end).

(** __getitem__ (individual.py:153-160): names.index raises ValueError *)
Definition getitem (names : list string) (values : list f64) (k : key) : res f64 :=
  match k with
  | KInt z => item values z
  | KName n => match index_of (String.eqb n) names with Some i => item values (Z.of_nat i) | None => Raise ValueError end
  | KOther => Raise ValueError
  end.
(** __setitem__ (individual.py:162-166): the key is given to the array as it is; an
    array of floats has no names.  A numpy integer works here: [KOther] stands for
    keys that are no index. *)
Definition setitem (values : list f64) (k : key) (v : f64) : res (list f64) :=
  match k with
  | KInt z => bind (pos (length values) z) (fun i => Ok (upd i v values))
  | KName _ | KOther => Raise IndexError
  end.
(** params (individual.py:102-111) with __iter__ (168-173): the loop from value
    number [k] on *)
Fixpoint params_from (names : list string) (k : nat) (values : list f64) (pd : pdict) : res pdict :=
  match values with
  | [] => Ok pd
  | v :: values =>
    match nth_error names k with
    | None => Raise IndexError
    | Some n => params_from names (S k) values (dict_set pd n v)
    end
  end.
(** params (individual.py:102-111) *)
Definition params (names : list string) (values : list f64) : res pdict := params_from names 0 values [].

(** ** Where the values are (individual.py:68-76, 130-144, 162-166, 224-242, 252-266)

    An array is a place in [arrs]; an individual has a reference to one.  Values are
    of any type [V], with any arithmetic. *)
Section Heap.
Context {V : Type}.
Variables vadd vsub : V -> V -> V.
Variable vlim : list V -> list V.       (* ParameterManager.limit: a new array (population.py:249-251) *)
Record heap : Type := mkHeap { arrs : list (list V); inds : list nat }.

(** the contents of an array (individual.py:263-265) *)
Definition array (h : heap) (r : nat) : list V := nth r (arrs h) [].
(** the values of individual [i] (individual.py:265) *)
Definition ref (h : heap) (i : nat) : nat := nth i (inds h) 0.
(** its values (individual.py:265) *)
Definition view (h : heap) (i : nat) : list V := array h (ref h i).

(** a new array (individual.py:229, 236, 242, 264) *)
Definition alloc (h : heap) (vs : list V) : heap * nat := (mkHeap (arrs h ++ [vs]) (inds h), length (arrs h)).
(** a new individual with an array (individual.py:68-75, 135, 142) *)
Definition indiv (h : heap) (r : nat) : heap := mkHeap (arrs h) (inds h ++ [r]).

(** What is done with individuals.  [OList vs]: Individual(p, vs) or spawn(vs) with a
    list or tuple, for which update makes an array (individual.py:263-264).
    [OArray i]: spawn(i.values), the array itself (individual.py:265).  [OCopy i]
    (137-144).  [OAdd], [OSub], [OMul]: arithmetic makes a new array (224-242).
    [OSet i k v]: i[k] = v with 0 <= k.  [OUpdList], [OUpdArray i j]: i.update(a list),
    i.update(j.values).  [OLimit i]: Population.limit (population.py:688-700). *)
Inductive hop : Type :=
| OList (vs : list V) | OArray (i : nat) | OCopy (i : nat)
| OAdd (i j : nat) | OSub (i j : nat) | OMul (i : nat) (f : V -> V)
| OSet (i k : nat) (v : V) | OUpdList (i : nat) (vs : list V) | OUpdArray (i j : nat) | OLimit (i : nat).

(** a new individual with a new array (individual.py:130-144, 224-242) *)
Definition make (h : heap) (vs : list V) : heap := let (h, r) := alloc h vs in indiv h r.
(** self.values = values (individual.py:265) *)
Definition point (h : heap) (i r : nat) : heap := mkHeap (arrs h) (upd i r (inds h)).
(** one of these (individual.py:130-144, 162-166, 224-242, 252-265, population.py:688-700) *)
Definition h_step (h : heap) (op : hop) : heap :=
  match op with
  | OList vs => make h vs
  | OArray i => indiv h (ref h i)
  | OCopy i => make h (view h i)
  | OAdd i j => make h (map2 vadd (view h i) (view h j))
  | OSub i j => make h (map2 vsub (view h i) (view h j))
  | OMul i f => make h (map f (view h i))
  | OSet i k v => mkHeap (upd (ref h i) (upd k v (view h i)) (arrs h)) (inds h)
  | OUpdList i vs => let (h, r) := alloc h vs in point h i r
  | OUpdArray i j => point h i (ref h j)
  | OLimit i => let (h, r) := alloc h (vlim (view h i)) in point h i r
  end.
(** a sequence of them (individual.py:130-265) *)
Fixpoint h_exec (h : heap) (ops : list hop) : heap := match ops with [] => h | op :: ops => h_exec (h_step h op) ops end.
(** before the first individual (individual.py:68-75) *)
Definition h_init : heap := mkHeap [] [].
End Heap.
Arguments heap V : clear implicits.
Arguments hop V : clear implicits.
