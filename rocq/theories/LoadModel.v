(** * Model of saving and loading a population: ade/population.py save, load,
    __getstate__, __setstate__, clear *)
From Coq Require Import String List Bool Arith ZArith.
From Verif Require Import Flt Py IndivModel ParamModel HistModel.
Import ListNotations.
Local Open Scope nat_scope.
Local Open Scope list_scope.

(** the attributes of a population that matter for saving and loading.
    [running] is None, True or False.  Functions are numbers; a lock is whether
    it is held; the reporter is given by what of it can be observed: the
    complaint callback, the number of callbacks, the best individual reported
    (population.py:495-505, 672-686) *)
Record reporter : Type := mkRep { r_complaint : option nat; r_callbacks : nat; r_best : option indiv }.
(** population.py:476-493, 495-505, 672-686 *)
Record popn : Type := mkPop {
  p_running : option bool; p_Nd : nat; p_Np : nat; p_popsize : nat;
  p_target : f64; p_sqs : f64; p_iList : list indiv; p_pm : pm; p_constr : list constr; p_hist : hist;
  p_func : option nat; p_reporter : option reporter;
  p_counter : nat; p_score : option Z; p_locks : list bool; p_onAbort : bool }.

(** the pickled state (population.py:476-493): func, reporter, locks, counter,
    replacementScore and cached sorts are left out.  The name 'kr' in the list
    is no attribute of a population; debug is not modelled.  An individual is
    pickled with values, _SSE and dt (individual.py:78-86), the parameter
    manager with all its attributes (population.py:98-111), the history as in
    HistModel.v.  What pickle and bz2 write is taken to be read back exactly *)
Record pstate : Type := mkPS {
  s_running : option bool; s_Nd : nat; s_Np : nat; s_popsize : nat; s_target : f64; s_sqs : f64;
  s_iList : list indiv; s_pm : pm; s_constr : list constr; s_hist : pickled }.
(** __getstate__ (population.py:476-493) *)
Definition pop_getstate (p : popn) : pstate :=
  mkPS (p_running p) (p_Nd p) (p_Np p) (p_popsize p) (p_target p) (p_sqs p) (p_iList p) (p_pm p) (p_constr p) (getstate (p_hist p)).

(** __setstate__ (population.py:495-505), on a new object: clear()
    (population.py:672-686), then the attributes, then a lock per individual *)
Definition pop_setstate (s : pstate) : res popn :=
  bind (setstate (s_hist s)) (fun h =>
  Ok (mkPop (match s_running s with Some false => Some true | r => r end)
        (s_Nd s) (s_Np s) (s_popsize s) (s_target s) (s_sqs s) (s_iList s) (s_pm s) (s_constr s) h
        None None 0 None (map (fun _ => false) (s_iList s)) false)).

(** ParameterManager.setup (population.py:89-96) *)
Definition pm_setup (p : pm) (bounds : list (f64 * f64)) : pm := mkPM (pm_names p) (map fst bounds) (map snd bounds).
(** ParameterManager.limit with numpy's broadcasting: one bound serves all
    values, one value is spread over all bounds, other lengths do not match
    (population.py:236-251) *)
Definition limit_bc (p : pm) (v : list f64) : res (list f64) :=
  if length (pm_mins p) =? length v then Ok (pm_limit p v)
  else match pm_mins p, pm_maxs p, v with
       | [lo], [hi], _ => Ok (map (limit1 lo hi) v)
       | _, _, [x] => Ok (map2 (fun lo hi => limit1 lo hi x) (pm_mins p) (pm_maxs p))
       | _, _, _ => Raise ValueError
       end.
(** the loop over the individuals (population.py:471-472) *)
Fixpoint limit_all (p : pm) (Nd : nat) (l : list indiv) : res (list indiv) :=
  match l with
  | [] => Ok []
  | i :: l =>
    bind (limit_bc p (ivalues i)) (fun v =>
    match ind_update Nd i v with
    | (j, None) => bind (limit_all p Nd l) (fun r => Ok (j :: r))
    | (_, Some e) => Raise e
    end)
  end.
(** load (population.py:427-474); [bounds] is None or a list *)
Definition pop_load (file : pstate) (func complaint : option nat) (bounds : option (list (f64 * f64))) : res popn :=
  bind (pop_setstate file) (fun p =>
  bind (match bounds with
        | None | Some [] => Ok (p_pm p, p_iList p)
        | Some b => let q := pm_setup (p_pm p) b in bind (limit_all q (p_Nd p) (p_iList p)) (fun l => Ok (q, l))
        end) (fun ql =>
  Ok (mkPop (p_running p) (p_Nd p) (p_Np p) (p_popsize p) (p_target p) (p_sqs p) (snd ql) (fst ql) (p_constr p) (p_hist p)
        func (Some (mkRep complaint 0 None)) (p_counter p) (p_score p) (p_locks p) (p_onAbort p)))).
