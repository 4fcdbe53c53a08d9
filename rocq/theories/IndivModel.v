(** * Model of ade/individual.py *)
From Coq Require Import List Bool ZArith.
From Flocq Require Import BinarySingleNaN.
From Verif Require Import Flt Py.
Import ListNotations.

(** Individual (individual.py:42-75): [values], [_SSE] ([None] = python None)
    and [dt].  The back reference [p] is passed where needed.  Simplified: the
    SSE is None or a float (the code also accepts float-like objects), and
    NaN payloads are not distinguished. *)
Record indiv : Set := mkIndiv {
  ivalues : list f64;
  istored : option f64;
  idt : option f64
}.

(** Individual.__init__ with values (individual.py:68-75), [Nd] from the
    population; [update]'s length check (individual.py:252-265) included *)
Definition ind_new (Nd : nat) (values : list f64) : res indiv :=
  if Nat.eqb (length values) Nd then Ok (mkIndiv values None None) else Raise ValueError.

(** Individual.SSE getter (individual.py:113-122) *)
Definition ind_SSE (i : indiv) : f64 :=
  match istored i with
  | None => finf
  | Some x => if fltb x fzero then finf else x
  end.

(** Individual.SSE setter (individual.py:123-128) *)
Definition ind_setSSE (i : indiv) (x : option f64) : indiv :=
  mkIndiv (ivalues i) x (idt i).

(** Individual.__float__ (individual.py:146-151) *)
Definition ind_float (i : indiv) : f64 :=
  if fltb (ind_SSE i) fzero then finf else ind_SSE i.

(** Individual.__bool__ (individual.py:175-187) *)
Definition ind_bool (i : indiv) : bool :=
  match istored i with
  | None => true
  | Some x => if isnan x then true else fleb fzero x
  end.

(** Individual.__lt__, __gt__ (individual.py:212-222) *)
Definition ind_lt (a b : indiv) : bool := fltb (ind_float a) (ind_float b).
(** __gt__ (individual.py:218-222) *)
Definition ind_gt (a b : indiv) : bool := fltb (ind_float b) (ind_float a).

(** np.all(self.values == other) for arrays of the same length
    (individual.py:200-210); different lengths are not modelled further
    (numpy broadcasting), they count as unequal here *)
Fixpoint vals_eq (a b : list f64) : bool :=
  match a, b with
  | [], [] => true
  | x :: a, y :: b => feqb x y && vals_eq a b
  | _, _ => false
  end.
(** Individual.__eq__ (individual.py:193-198) *)
Definition ind_eq (a b : indiv) : bool :=
  feqb (ind_SSE a) (ind_SSE b) && vals_eq (ivalues a) (ivalues b).

(** The bytes hashed by Individual.__hash__ (individual.py:189-191):
    struct.pack('<f', SSE) + values.tobytes().  The bytes of a float are
    represented by the float itself (Leibniz equality distinguishes the two
    zeros; NaN payloads are dropped).  struct.pack raises OverflowError when a
    finite number does not fit single precision. *)
Definition hashkey : Set := (binary_float 24 128 * list f64)%type.
(** __hash__ up to hash (individual.py:189-191) *)
Definition ind_hashkey (i : indiv) : res hashkey :=
  let s := ind_SSE i in
  if isfin s && negb (is_finite (to32 s)) then Raise OverflowError
  else Ok (to32 s, ivalues i).

(** Individual.copy (individual.py:137-144) *)
Definition ind_copy (Nd : nat) (i : indiv) : res indiv :=
  bind (ind_new Nd (ivalues i)) (fun j => Ok (ind_setSSE j (Some (ind_SSE i)))).

(** Individual.update (individual.py:252-265): the individual afterwards and
    whether an exception was raised *)
Definition ind_update (Nd : nat) (i : indiv) (values : list f64) : indiv * option exn :=
  if Nat.eqb (length values) Nd then (mkIndiv values (istored i) (idt i), None)
  else (i, Some ValueError).

(** Individual.__getstate__/__setstate__ (individual.py:77-92): state dict with
    the three attribute names as keys *)
Inductive pstate_entry : Set :=
| PSvalues (v : list f64) | PSsse (x : option f64) | PSdt (x : option f64).
(** __getstate__ (individual.py:77-85) *)
Definition ind_getstate (i : indiv) : list pstate_entry :=
  [PSvalues (ivalues i); PSsse (istored i); PSdt (idt i)].
(** setattr for each entry on a blank instance; [None] if an attribute is
    never set (individual.py:87-93) *)
Definition ind_setstate (st : list pstate_entry) : option indiv :=
  let v := fold_left (fun acc e => match e with PSvalues v => Some v | _ => acc end) st None in
  let s := fold_left (fun acc e => match e with PSsse v => Some v | _ => acc end) st None in
  let d := fold_left (fun acc e => match e with PSdt v => Some v | _ => acc end) st None in
  match v, s, d with
  | Some v, Some s, Some d => Some (mkIndiv v s d)
  | _, _, _ => None
  end.

(** Individual.__sub__, __add__, __mul__ (individual.py:224-242), elementwise;
    spawn's length check always passes as the lengths agree *)
Definition ind_sub (a b : indiv) : indiv := mkIndiv (map2 fsub (ivalues a) (ivalues b)) None None.
(** __add__ (individual.py:231-236) *)
Definition ind_add (a b : indiv) : indiv := mkIndiv (map2 fadd (ivalues a) (ivalues b)) None None.
(** __mul__ (individual.py:238-242) *)
Definition ind_mul (a : indiv) (F : f64) : indiv := mkIndiv (map (fun x => fmul x F) (ivalues a)) None None.

(** Individual.blacklist (individual.py:244-250); the cache invalidation is in
    RankModel.v *)
Definition ind_blacklist (i : indiv) : indiv := ind_setSSE i (Some finf).

(** Outcome of the user's evaluation function through defer.maybeDeferred
    (population.py:662-670, individual.py:286-300) *)
Inductive evalres : Set := EvSSE (x : option f64) | EvFailure.

(** the parts of the population that evaluation touches: running
    (None/True/False) and the evaluation counter (individual.py:288, population.py:662-670) *)
Record evpop : Set := mkEvpop { ep_running : option bool; ep_counter : nat }.

(** Population.evalFunc (population.py:662-670): what the user's function is
    called with ([None] = python None) *)
Definition eval_arg (p : evpop) (i : indiv) : option (list f64) :=
  match ep_running p with Some false => None | _ => Some (ivalues i) end.

(** Individual.evaluate (individual.py:267-301): [func] is the user's function
    (as an oracle for this call), [t] the elapsed time *)
Definition evaluate (func : option (list f64) -> evalres) (t : f64) (p : evpop) (i : indiv) : evpop * indiv :=
  match func (eval_arg p i) with
  | EvSSE x => (mkEvpop (ep_running p) (S (ep_counter p)), mkIndiv (ivalues i) x (Some t))
  | EvFailure => (p, mkIndiv (ivalues i) (Some (fofZ (-1))) (idt i))
  end.
