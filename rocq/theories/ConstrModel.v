(** * Model of ade/constraints.py *)
From Coq Require Import String List Bool Arith.
From Verif Require Import Flt Py IndivModel ParamModel.
Import ListNotations.

(** RelationsChecker.relations (constraints.py:41-48): a dict of dicts, as
    association lists in iteration order; an entry is (m, b, yMaxErr) *)
Definition relations : Type := list (string * list (string * (f64 * f64 * f64))).

(** the inner loop of RelationsChecker.__call__ (constraints.py:54-59); a
    missing name raises KeyError *)
Fixpoint check_ys (params : pdict) (x : f64) (ys : list (string * (f64 * f64 * f64))) : res bool :=
  match ys with
  | [] => Ok true
  | (yName, (m, b, yMaxErr)) :: ys =>
    match dict_get params yName with
    | None => Raise KeyError
    | Some y =>
      let yr := fadd (fmul m x) b in
      if fltb yMaxErr (fabs (fsub yr y)) then Ok false else check_ys params x ys
    end
  end.
(** RelationsChecker.__call__ (constraints.py:50-60) *)
Fixpoint rel_check (rel : relations) (params : pdict) : res bool :=
  match rel with
  | [] => Ok true
  | (xName, ys) :: rel =>
    match dict_get params xName with
    | None => Raise KeyError
    | Some x =>
      match check_ys params x ys with
      | Raise e => Raise e
      | Ok false => Ok false
      | Ok true => rel_check rel params
      end
    end
  end.

Section Constraints.
(** np.power(10.0, x) *)
Variable pow10 : f64 -> f64.

(** an entry of cList (constraints.py:97-99): the method and its linear and
    log-space parameter names.  The sets are lists in iteration order; None is
    the empty list, both are false in python *)
Record meth : Type := mkMeth { m_func : constr; m_lin : list string; m_log : list string }.
(** a Constraints object: cList and fList (constraints.py:95-100, 161-162) *)
Record constraints : Type := mkC { cList : list meth; fList : list constr }.

(** names.issubset(params) (constraints.py:139, 145) *)
Definition has (d : pdict) (n : string) : bool := match dict_get d n with Some _ => true | None => false end.
(** set.issubset (constraints.py:139, 145) *)
Definition subset (names : list string) (d : pdict) : bool := forallb (has d) names.

(** the loops constraints.py:141-143 and 147-149: set what is not there yet *)
Definition fill (g : f64 -> f64) (params : pdict) (names : list string) (new : pdict) : pdict :=
  fold_left (fun new n => if has new n then new
                          else match dict_get params n with Some v => dict_set new n (g v) | None => new end) names new.

(** wrapper (constraints.py:137-153) for the current loop variables [m], with
    the shared newParams; the debug message is not modelled *)
Definition wrapper (m : meth) (params new : pdict) : pdict * res bool :=
  let rest new :=
    match m_log m with
    | [] => (new, m_func m new)
    | _ => if subset (m_log m) params then let new := fill pow10 params (m_log m) new in (new, m_func m new)
           else (new, Ok true)
    end in
  match m_lin m with
  | [] => rest new
  | _ => if subset (m_lin m) params then rest (fill (fun v => v) params (m_lin m) new) else (new, Ok true)
  end.

(** the loop of passesConstraints (population.py:230-234) over the generator
    Constraints.__iter__ (constraints.py:155-159), each wrapper called before
    the next one is made *)
Fixpoint check_meths (ms : list meth) (params new : pdict) : res bool :=
  match ms with
  | [] => Ok true
  | m :: ms =>
    match wrapper m params new with
    | (_, Raise e) => Raise e
    | (_, Ok false) => Ok false
    | (new, Ok true) => check_meths ms params new
    end
  end.
(** all wrappers, then all functions, with one newParams (constraints.py:155-159) *)
Definition c_check (C : constraints) (params : pdict) : res bool :=
  match check_meths (cList C) params [] with
  | Ok true => check_all (fList C) params
  | r => r
  end.
(** passesConstraints (population.py:215-234) with a Constraints object, whose
    __bool__ is constraints.py:112-113 *)
Definition c_passes (names : list string) (C : constraints) (values : list f64) : res bool :=
  match cList C, fList C with
  | [], [] => Ok true
  | _, _ => c_check C (mk_params names values)
  end.
(** append (constraints.py:161-162) *)
Definition c_append (C : constraints) (f : constr) : constraints := mkC (cList C) (fList C ++ [f]).

(** list(constraints) before any call: the generator has run to its end, so the
    closure's func is the last function assigned by either loop and its sets
    are those of the last method (constraints.py:156-159) *)
Definition collected (C : constraints) : list meth :=
  match rev (cList C) with
  | [] => []
  | m :: _ => map (fun _ => mkMeth (match rev (fList C) with f :: _ => f | [] => m_func m end) (m_lin m) (m_log m)) (cList C)
  end.
(** the same with collected wrappers (constraints.py:137-159) *)
Definition c_check_collected (C : constraints) (params : pdict) : res bool :=
  match check_meths (collected C) params [] with
  | Ok true => check_all (fList C) params
  | r => r
  end.

(** collected wrappers called again: newParams lives on.  The loop of passesConstraints
    (population.py:230-234) over them, from the newParams left by the calls before
    (constraints.py:137-159) *)
Fixpoint check_again (ms : list meth) (params new : pdict) : pdict * res bool :=
  match ms with
  | [] => (new, Ok true)
  | m :: ms =>
    match wrapper m params new with
    | (new, Ok true) => check_again ms params new
    | r => r
    end
  end.
(** setConstraints( *constraints ) followed by several passesConstraints: their results
    (population.py:194-234, constraints.py:137-159) *)
Fixpoint checks_collected (C : constraints) (ps : list pdict) (new : pdict) : list (res bool) :=
  match ps with
  | [] => []
  | p :: ps =>
    let (new, r) := check_again (collected C) p new in
    (match r with Ok true => check_all (fList C) p | _ => r end) :: checks_collected C ps new
  end.
End Constraints.
