(** * Fitting in several goes: DE runs on a population, saving and loading it in
    between (ade/de.py:640-683; ade/population.py:427-518, 712-728).

    Joins the runs of CompModel.v with saving and loading (LoadModel.v).  The
    population may be saved at any time, also during a run, as from a callback
    or after an abort; the process that goes on with the loaded one knows
    nothing of the run it came from. *)
From Coq Require Import List Bool Arith ZArith.
From Verif Require Import Flt Py IndivModel ParamModel FManModel RunModel ChalModel ChalInst LoopModel CompModel HistModel LoadModel.
Import ListNotations.

(** one DE object with everything it meets in its run: constants, random draws, the
    evaluation function, the options, its FManager, and what happens, in order,
    up to some time (de.py:360-421, 565-683); the history as it is then
    (history.py:974-1073) *)
Record sess : Type := mkSess {
  q_CR : f64; q_F : nat -> f64; q_j : nat -> nat; q_u : nat -> nat -> f64;
  q_func : nat -> option (list f64) -> evalres; q_t : nat -> f64; q_PS : nat -> evpop;
  q_crash : nat -> bool; q_xSSE : bool; q_sin : f64 -> f64; q_up0 : f64; q_up1 : f64;
  q_o : opts; q_fm : fman; q_events : list cevent; q_hist : hist }.
(** the population, its score, and whether a run is at work on it (population.py:394-424) *)
Record camp : Type := mkCamp { k_pop : popn; k_score : score; k_busy : bool }.

(** the individuals in the list after some events of a run, as they are then (population.py:526-547) *)
Definition members_of (x : lst obj * list nat) : list indiv := map (look (snd x)) (pop (lch (fst x))).
(** the population after them; locks as they may be (population.py:712-728).  The
    counter and the reporter, which change too, are not followed here *)
Definition ran (p : popn) (x : lst obj * list nat) (h : hist) : popn :=
  mkPop (Some (prun (lch (fst x)))) (p_Nd p) (p_Np p) (p_popsize p) (p_target p) (p_sqs p) (members_of x) (p_pm p) (p_constr p) h
        (p_func p) (p_reporter p) (p_counter p) (p_score p) (p_locks p) (p_onAbort p).
(** the run is over, and so are its challenges (de.py:635-638) *)
Definition over (x : lst obj * list nat) : bool :=
  match lph (fst x) with LEnd _ => forallb (fun c => pdone c) (cs (lch (fst x))) | _ => false end.
(** the events of a run that starts on the population [p] with score [sc] (de.py:670-683) *)
Definition sess_run (p : popn) (sc : score) (s : sess) (es : list cevent) : option (lst obj * list nat) :=
  cexec (p_pm p) (p_constr p) (q_CR s) (q_F s) (q_j s) (q_u s) (q_func s) (q_t s) (q_PS s) (q_crash s) (q_xSSE s) (q_sin s) (q_up0 s) (q_up1 s) (q_o s)
    (length (p_iList p)) (cstart (q_o s) (p_iList p) (q_fm s) sc) es.

(** what the user does: run a new DE object, or save and load (de.py:640-683,
    population.py:427-518) *)
Inductive cop : Type := KRun (s : sess) | KReload (func complaint : option nat) (bounds : option (list (f64 * f64))).
(** None: not modelled, which is a run while another one is at work, or on a
    population without all its members or without a function; or loading raises
    (de.py:670-683, population.py:427-518) *)
Definition camp_step (c : camp) (o : cop) : option camp :=
  let p := k_pop c in
  match o with
  | KRun s =>
    if k_busy c || negb (length (p_iList p) =? p_Np p) then None else
    match p_func p with
    | None => None
    | Some _ =>
      match p_running p with
      | Some false => Some c                           (* de.py:674-676 *)
      | _ =>
        match sess_run p (k_score c) s (q_events s) with
        | Some x => Some (mkCamp (ran p x (q_hist s)) (r_score (lrs (fst x))) (negb (over x)))
        | None => None
        end
      end
    end
  | KReload f cb b =>
    match pop_load (pop_getstate p) f cb b with
    | Ok p' => Some (mkCamp p' (mkScore None (p_sqs p')) false)
    | Raise _ => None
    end
  end.
(** one thing after the other (de.py:640-683, population.py:427-518) *)
Fixpoint camp_exec (c : camp) (l : list cop) : option camp :=
  match l with
  | [] => Some c
  | o :: l => match camp_step c o with Some c' => camp_exec c' l | None => None end
  end.
