(** * Model of ade/population.py: ParameterManager, and of
    DifferentialEvolution.crossover in ade/de.py *)
From Coq Require Import String Ascii List Bool Arith ZArith Reals.
From Verif Require Import Flt Py IndivModel.
Import ListNotations.

(** np.clip on one float: minimum(maximum(v, lo), hi) where both let a NaN
    first argument through (numpy's _NPY_MAX/_NPY_MIN).  Library code, used by
    population.py:251 *)
Definition npmax (a b : f64) : f64 := if isnan a then a else if fltb b a then a else b.
(** np.minimum, as used by np.clip (population.py:251) *)
Definition npmin (a b : f64) : f64 := if isnan a then a else if fltb a b then a else b.
(** np.clip (population.py:251) *)
Definition npclip (v lo hi : f64) : f64 := npmin (npmax v lo) hi.

(** the float 2.0 (numpy converts the int 2 in 2*self.mins) (population.py:249-250) *)
Definition ftwo : f64 := fofZ 2.

(** ParameterManager.limit (population.py:236-251), one coordinate.  Bounds are
    taken to be float arrays (a list of all-int bounds gives an integer
    array, not modelled) *)
Definition limit1 (lo hi v : f64) : f64 :=
  let v1 := if fltb v lo then fsub (fmul ftwo lo) v else v in
  let v2 := if fltb hi v1 then fsub (fmul ftwo hi) v1 else v1 in
  npclip v2 lo hi.

(** ParameterManager (population.py:78-96); constraints are separate *)
Record pm : Type := mkPM {
  pm_names : list string;
  pm_mins : list f64;
  pm_maxs : list f64
}.

(** ParameterManager.limit on a whole value array (population.py:249-251) *)
Definition pm_limit (p : pm) (values : list f64) : list f64 :=
  map3 limit1 (pm_mins p) (pm_maxs p) values.

(** Population.limit (population.py:688-700): updates the individual in place *)
Definition pop_limit (p : pm) (Nd : nat) (i : indiv) : indiv * option exn :=
  ind_update Nd i (pm_limit p (ivalues i)).

(** ** Unity conversions (population.py:172-192) over exact reals: the code's
    expressions with floating point rounding left out *)
Definition fromUnityR (lo hi u : R) : R := (lo + (hi - lo) * u)%R.
(** toUnity (population.py:192) *)
Definition toUnityR (lo hi v : R) : R := ((v - lo) / (hi - lo))%R.

(** the same in floating point (population.py:181-182) *)
Definition fromUnity1 (lo hi u : f64) : f64 := fadd lo (fmul (fsub hi lo) u).
(** toUnity (population.py:192) *)
Definition toUnity1 (lo hi v : f64) : f64 := fdiv (fsub v lo) (fsub hi lo).

(** ** Constraints *)

(** the parameter dict (population.py:227-229): assignments in order, a later
    equal name overwrites in place *)
Definition pdict : Type := list (string * f64).
(** params[name] = value (population.py:229) *)
Fixpoint dict_set (d : pdict) (k : string) (v : f64) : pdict :=
  match d with
  | [] => [(k, v)]
  | (k', v') :: t => if String.eqb k k' then (k, v) :: t else (k', v') :: dict_set t k v
  end.
(** the lookup of a name by a constraint that is called with the dict (population.py:231) *)
Fixpoint dict_get (d : pdict) (k : string) : option f64 :=
  match d with
  | [] => None
  | (k', v') :: t => if String.eqb k k' then Some v' else dict_get t k
  end.
(** the dict made of the values (population.py:227-229) *)
Definition mk_params (names : list string) (values : list f64) : pdict :=
  fold_left (fun d kv => dict_set d (fst kv) (snd kv)) (combine names values) [].

(** a user constraint: called with the dict, returns something truthy or falsy,
    or raises.  Simplified: a constraint does not modify the dict (the code
    hands the same dict to every constraint) and its answer is a function of
    the dict (population.py:231) *)
Definition constr : Type := pdict -> res bool.

(** the loop population.py:230-234 *)
Fixpoint check_all (cs : list constr) (d : pdict) : res bool :=
  match cs with
  | [] => Ok true
  | f :: cs =>
    match f d with
    | Raise e => Raise e
    | Ok false => Ok false
    | Ok true => check_all cs d
    end
  end.
(** ParameterManager.passesConstraints (population.py:215-234) *)
Definition passesConstraints (names : list string) (cs : list constr) (values : list f64) : res bool :=
  match cs with
  | [] => Ok true
  | _ => check_all cs (mk_params names values)
  end.

(** ParameterManager.setConstraints (population.py:194-213).  An argument is a
    callable ([Some f]) or something not callable ([None]).  Returns the new
    constraint list and the exception raised, if any *)
Fixpoint all_callable (args : list (option constr)) : option (list constr) :=
  match args with
  | [] => Some []
  | None :: _ => None
  | Some f :: t => option_map (cons f) (all_callable t)
  end.
(** the constraints are replaced when all are callable (population.py:210-213) *)
Definition setConstraints (old : list constr) (args : list (option constr)) : list constr * option exn :=
  match all_callable args with
  | Some l => (l, None)
  | None => (old, Some ValueError)
  end.

(** ** Sorted names *)

(** Python orders str by code points; [String.leb] does for 8-bit strings.
    sorted() (population.py:84): an insertion sort.  Simplified: Timsort gives
    the same list, as names comparing equal are identical *)
Fixpoint sinsert (x : string) (l : list string) : list string :=
  match l with
  | [] => [x]
  | y :: t => if String.leb x y then x :: l else y :: sinsert x t
  end.
(** sorted(names) (population.py:84) *)
Fixpoint ssort (l : list string) : list string :=
  match l with [] => [] | x :: t => sinsert x (ssort t) end.

(** names.index(name) for a name that is in the list (population.py:83-84) *)
Definition sindex (names : list string) (n : string) : nat :=
  match index_of (String.eqb n) names with Some k => k | None => length names end.
(** self.sortedNameIndices (population.py:83-84) *)
Definition sortedNameIndices (names : list string) : list nat :=
  map (sindex names) (ssort names).

(** ParameterManager.sortedNamerator (population.py:152-170), its three forms;
    [None] where the code raises IndexError *)
Definition namerator_names (names : list string) : list (option string) :=
  map (fun k => nth_error names k) (sortedNameIndices names).
(** the form with neither values nor namesOnly (population.py:165-167) *)
Definition namerator_pairs (names : list string) : list (nat * option string) :=
  map (fun k => (k, nth_error names k)) (sortedNameIndices names).
(** the form with values (population.py:168-170) *)
Definition namerator_values {A} (names : list string) (values : list A) : list (nat * option string * option A) :=
  map (fun k => (k, nth_error names k, nth_error values k)) (sortedNameIndices names).

(** ** Boundary stars: the suffix computed in ParameterManager.stringValue
    (population.py:125-126); the number formatting is not modelled *)
Definition f_0_05 : f64 := flit 3602879701896397 (-56).   (* nearest double to 0.05 *)
Definition f_0_95 : f64 := flit 4278419646001971 (-52).   (* nearest double to 0.95 *)
Inductive stars : Set := NoStar | OneStar | TwoStars.
(** the suffix (population.py:125-126) *)
Definition suffix (lo hi v : f64) : stars :=
  let u := fdiv (fsub v lo) (fsub hi lo) in
  if fltb u f_0_05 then OneStar else if fltb f_0_95 u then TwoStars else NoStar.

(** ** Crossover and mutation (de.py) *)

(** DifferentialEvolution.crossover (de.py:444-462), in place on the mutant.
    [j] is random.randint(0, Nd-1); [u k] the random.uniform(0, 1) drawn at
    position k (no draw is made at k = j) *)
Fixpoint crossover_from (CR : f64) (j : nat) (u : nat -> f64) (k : nat) (parent mutant : list f64) : list f64 :=
  match parent, mutant with
  | p :: parent, m :: mutant =>
    (if Nat.eqb k j then m else if fltb CR (u k) then p else m)
      :: crossover_from CR j u (S k) parent mutant
  | _, _ => mutant
  end.
(** the loop over the places, from the first on (de.py:452-462) *)
Definition crossover (CR : f64) (j : nat) (u : nat -> f64) (parent mutant : list f64) : list f64 :=
  crossover_from CR j u 0 parent mutant.

(** iBase + (i0 - i1)*F (de.py:532) on the values *)
Definition mutate (ib i0 i1 : list f64) (F : f64) : list f64 :=
  map2 fadd ib (map (fun x => fmul x F) (map2 fsub i0 i1)).

(** building the challenger (de.py:532-535): mutate, cross over, limit *)
Definition challenger (p : pm) (CR : f64) (j : nat) (u : nat -> f64) (F : f64)
           (target ib i0 i1 : list f64) : list f64 :=
  pm_limit p (crossover CR j u target (mutate ib i0 i1 F)).

(** ** Population size (population.py:390-392, 421-423): [popsize] keyword None
    or 0 keeps the class attribute 10; Np_min = 20, Np_max = 500.  Simplified:
    a float popsize is taken after its int() *)
Definition pop_Np (popsize : option Z) (Nd : Z) : Z :=
  let ps := match popsize with Some z => if Z.eqb z 0 then 10%Z else z | None => 10%Z end in
  Z.max 20 (Z.min (ps * Nd) 500).
