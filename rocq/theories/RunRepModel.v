(** * Whole runs with their reporter: what ade/de.py:541-559, 630-635, 670-683
    report, what ade/report.py makes of it, and when the run waits for it.

    CompModel.v lets a complaint about any evaluated individual come at any time.
    Here the complaints are those of the callbacks, the reporter being that of
    RepModel.v.  An individual's present state is in the reporter's heap. *)
From Coq Require Import List Bool Arith ZArith.
From Verif Require Import Flt Py IndivModel ParamModel FManModel RunModel ChalModel ChalInst LoopModel CompModel RepModel.
Import ListNotations.

Section RunRep.
Variables (p : pm) (cons : list constr) (CR : f64) (F : nat -> f64) (j : nat -> nat) (u : nat -> nat -> f64).
Variables (func : nat -> option (list f64) -> evalres) (t : nat -> f64) (PS : nat -> evpop).
Variables (histcrash : nat -> bool) (xSSE : bool) (npsin : f64 -> f64) (up0 up1 : f64) (o : opts).
(** the population's size; objects are numbered as in CompModel.v *)
Variable n : nat.
(** the number of callbacks, and np.argsort *)
Variable ncb : nat.
Variable argsort : list f64 -> list nat.
(** the place of object [k] in the heap of the reporter, which also has individuals
    that setup evaluated and did not keep (population.py:803-811) *)
Variable rid : nat -> nat.

(** the run, the reporter, and the targets of the losing challengers that are being
    recorded (de.py:551-555) *)
Record rrun : Type := mkRR { rl : lst obj; rr : rep; rtg : list (nat * nat) }.

(** an individual is evaluated: its values and SSE (individual.py:252-300) *)
Definition set_heap (s : rep) (k : nat) (i : indiv) : rep :=
  mkRep (fun m => if m =? k then i else heap s m) (best s) (lastrep s) (sched s) (inprog s) (runs s) (aborted s) (log s).
(** iChallenger < iTarget (de.py:543) as they are now *)
Definition better_heap (h : nat -> indiv) (r it : obj) : bool := ind_lt (h (rid (oid r))) (h (rid (oid it))).
(** the state of the reporter after p.report; its result is used by replacement()
    only, which LoopModel.v has (population.py:996-1028) *)
Definition reported_to (x : res (rep * list String.string * list f64)) (s : rep) : rep :=
  match x with Ok (s', _, _) => s' | Raise _ => s end.
(** p.report(iChallenger, iTarget) (de.py:555) *)
Definition report_challenge (s : rep) (r it : nat) : rep := reported_to (pop_report ncb s 0 (Some r) (Some it) false false) s.
(** Population.best() (population.py:573-595): the first in the order of SSEs *)
Definition best_member (h : nat -> indiv) (l : list obj) : option obj :=
  match argsort (map (fun a => ind_SSE (h (rid (oid a)))) l) with
  | k :: _ => nth_error l k
  | [] => None
  end.
(** p.report() without arguments (de.py:633, 682) *)
Definition report_best (s : rep) (l : list obj) : rep :=
  match best_member (heap s) l with
  | Some b => reported_to (pop_report ncb s (rid (oid b)) None None false false) s
  | None => s
  end.
(** what the end of an evaluation or of a record has the reporter do (de.py:542-559):
    the reporter before and after the comparison, with the targets put aside *)
Definition eval_done (s : lst obj) (r : rep) (tg : list (nat * nat)) (c : nat) : rep * list (nat * nat) :=
  match nth_error (cs (lch s)) c with
  | Some (mkChal q (PEval it ch)) =>
    match ev_obj func t PS n c it ch with
    | Some x =>
      let r := set_heap r (rid (oid x)) (oind x) in
      if ChalModel.run (lch s) then
        if better_heap (heap r) x it then (report_challenge r (rid (oid x)) (rid (oid it)), tg)
        else if xSSE then (report_challenge r (rid (oid x)) (rid (oid it)), tg)
        else (r, (c, oid it) :: tg)
      else (r, tg)
    | None => (r, tg)
    end
  | _ => (r, tg)
  end.
(** history.add of a losing challenger is done; if it raised there is no report (de.py:551-555) *)
Definition hist_done (r : rep) (tg : list (nat * nat)) (c : nat) : rep :=
  if histcrash c then r else
  match find (fun x => fst x =? c) tg with
  | Some (_, it) => report_challenge r (rid (n + c)) (rid it)
  | None => r
  end.
(** the comparison that the step [e] of the run makes: the challenger has just
    been evaluated (de.py:539-543) *)
Definition better_at (s : lst obj) (r : rep) (tg : list (nat * nat)) (e : levent) : obj -> obj -> bool :=
  match e with
  | LC (EEvalDone c) => better_heap (heap (fst (eval_done s r tg c)))
  | _ => better_heap (heap r)
  end.
(** the final report is made when the loop has been left while running (de.py:631-634) *)
Definition final (a b : lst obj) (r : rep) : rep :=
  match lph a, lph b with
  | LRep _, _ => r
  | _, LRep _ => report_best r (pop (lch b))
  | _, _ => r
  end.
(** waitForReports has fired: callbacks are not being run, or the wait is over
    because of an abort; an exception of complaintCallback ends a run as well
    (population.py:1030-1038, report.py:77-82, 192-199) *)
Definition idle (r : rep) : bool := aborted r || forallb (fun x => match r_ph x with PDead => true | _ => false end) (runs r).
(** whether the step waits for the reports first (de.py:586, 634) *)
Definition waits (e : levent) : bool := match e with LGo | LFinish => true | _ => false end.

(** what can happen: something in the run; a callback or complaintCallback comes
    back (report.py:167-174) *)
Inductive rrevent : Set := RRun (e : levent) | RCb (m : nat) (r : cbres) | RComp (m : nat) (ok : bool).
(** one event; None: it cannot happen (de.py:464-638, report.py:77-192).  An error
    in a callback aborts the population (report.py:168-170) *)
Definition rr_step (x : rrun) (e : rrevent) : option rrun :=
  let lstep b := lstep (mk_obj p cons CR F j u n) (ev_obj func t PS n) b histcrash xSSE npsin up0 up1 o in
  match e with
  | RRun e =>
    if waits e && negb (idle (rr x)) then None else
    match lstep (better_at (rl x) (rr x) (rtg x) e) (rl x) e with
    | None => None
    | Some s =>
      let (r, tg) :=
        match e with
        | LC (EEvalDone c) => eval_done (rl x) (rr x) (rtg x) c
        | LC (EHistDone c) => (hist_done (rr x) (rtg x) c, rtg x)
        | LC EPopAbort => (rep_step ncb (rr x) RAbort, rtg x)
        | _ => (rr x, rtg x)
        end in
      Some (mkRR s (final (rl x) s r) tg)
    end
  | RCb m CbFails =>
    match nth_error (runs (rr x)) m with
    | Some (mkRun _ _ _ PCallback) =>
      match lstep (better_heap (heap (rr x))) (rl x) (LC EPopAbort) with
      | Some s => Some (mkRR s (rep_step ncb (rr x) (RDone m CbFails)) (rtg x))
      | None => None
      end
    | _ => None
    end
  | RCb m c => Some (mkRR (rl x) (rep_step ncb (rr x) (RDone m c)) (rtg x))
  | RComp m ok => Some (mkRR (rl x) (rep_step ncb (rr x) (RComplained m ok)) (rtg x))
  end.
(** any sequence of events (de.py:464-638, report.py:77-192) *)
Fixpoint rr_exec (x : rrun) (es : list rrevent) : option rrun :=
  match es with
  | [] => Some x
  | e :: es => match rr_step x e with Some x' => rr_exec x' es | None => None end
  end.
(** a run on a population that setup has left, with the reporter as setup has left
    it: the best member is reported first (de.py:670-683).  With maxiter 0 there is
    another report after the callbacks of this one, which is not modelled *)
Definition rr_start (l : list indiv) (fm : fman) (sc : score) (r : rep) : rrun :=
  mkRR (linit o (objects l) fm sc) (report_best r (objects l)) [].
End RunRep.
