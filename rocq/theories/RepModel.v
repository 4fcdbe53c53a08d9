(** * Model of ade/report.py Reporter and Population.report *)
From Coq Require Import String List Bool Arith ZArith.
From Verif Require Import Flt Py IndivModel.
Import ListNotations.
Local Open Scope string_scope.
Local Open Scope nat_scope.

(** ** Comparisons *)
(** minDiff = 0.02 (report.py:60) *)
Definition minDiff : f64 := flit 5764607523034235 (-58).
(** Reporter.isEquivSSE (report.py:101-115) of two individuals, [None] for a
    missing one.  The SSE property is never None (individual.py:113-122) *)
Definition is_equiv (better worse : option indiv) : bool :=
  match better, worse with
  | Some b, Some w =>
    if feqb (ind_SSE w) fzero then false
    else fltb (fabs (fsub (fdiv (ind_SSE b) (ind_SSE w)) fone)) minDiff
  | _, _ => false
  end.
(** bogus (report.py:311-321) *)
Definition bogus (i : indiv) : bool := isnan (ind_SSE i) || isinf (ind_SSE i).
(** str(int(x)) for 0 <= x < 10 (report.py:348) *)
Definition digit (x : f64) : string :=
  nth (Z.to_nat (ftrunc x)) ["0"; "1"; "2"; "3"; "4"; "5"; "6"; "7"; "8"; "9"] "".
(** Reporter.msgRatio (report.py:256-350): the ratio and the progress symbol.
    The ints 0 and 1000 are floats here *)
Definition msg_ratio (num denom : indiv) (bogus_char : string) : option f64 * string :=
  if negb (ind_bool num) || negb (ind_bool denom) then (None, "?")
  else if bogus num then if bogus denom then (Some fzero, "%") else (Some (fofZ 1000), bogus_char)
  else if bogus denom then (Some fzero, "#")
  else if ind_lt num denom then (None, "X")
  else if is_equiv (Some denom) (Some num) then (Some fzero, "0")
  else let ratio := if feqb (ind_SSE denom) fzero then fofZ 1000
                    else frint (fdiv (ind_SSE num) (ind_SSE denom)) in
       (Some ratio, if fltb ratio (fofZ 10) then digit ratio else "9").

(** ** Callback runs *)
(** what a run is waiting for: the result of callback number [r_k], or the
    complaintCallback; [PDead]: the complaintCallback raised (report.py:167, 173-174) *)
Inductive phase : Set := PCallback | PComplaint | PDead.
(** a suspended runUntilFree (report.py:151-187): [r_i] the individual being
    handed out (also iPrev), [r_pb] the iPrevBest of the runCallbacks call that
    started the run *)
Record run : Set := mkRun { r_i : nat; r_k : nat; r_pb : option nat; r_ph : phase }.
(** what happens, in order: runCallbacks called for an individual; callback
    number k called with an individual and its SSE; complaintCallback called
    (report.py:189, 164-165, 173-174) *)
Inductive lev : Set := ESched (i : nat) | ECall (k i : nat) (sse : f64) | EComplaint (i : nat).
(** The reporter (report.py:62-75).  Individuals are objects: numbers into
    [heap].  [aborted] stands for p.running being False.  [runs] are the
    suspended runUntilFree coroutines.  The callbacks are the numbers
    0..ncb-1.  Not modelled: _syms_on_line and line breaks *)
Record rep : Type := mkRep {
  heap : nat -> indiv; best : option nat; lastrep : option nat;
  sched : option nat; inprog : bool; runs : list run; aborted : bool; log : list lev
}.
Section Rep.
Variable ncb : nat.

(** a new reporter (report.py:62-75) *)
Definition r_init (h : nat -> indiv) : rep := mkRep h None None None false [] false [].
(** assignment to the bag cbrScheduled (report.py:158, 189) *)
Definition set_sched (s : rep) (x : option nat) : rep := mkRep (heap s) (best s) (lastrep s) x (inprog s) (runs s) (aborted s) (log s).
(** assignment to cbrInProgress (report.py:154, 187) *)
Definition set_inprog (s : rep) (b : bool) : rep := mkRep (heap s) (best s) (lastrep s) (sched s) b (runs s) (aborted s) (log s).
(** the suspended runs (report.py:192) *)
Definition set_runs (s : rep) (l : list run) : rep := mkRep (heap s) (best s) (lastrep s) (sched s) (inprog s) l (aborted s) (log s).
(** p.running becomes False, by way of p.abort (report.py:81, population.py:720) *)
Definition set_aborted (s : rep) (b : bool) : rep := mkRep (heap s) (best s) (lastrep s) (sched s) (inprog s) (runs s) b (log s).
(** assignment to iBest (report.py:185, 246) *)
Definition set_best (s : rep) (b : option nat) : rep := mkRep (heap s) b (lastrep s) (sched s) (inprog s) (runs s) (aborted s) (log s).
(** assignment to iLastReported (report.py:252) *)
Definition set_lastrep (s : rep) (b : option nat) : rep := mkRep (heap s) (best s) b (sched s) (inprog s) (runs s) (aborted s) (log s).
(** for the statements: something happened (report.py:164-165, 173-174, 189) *)
Definition emit (s : rep) (e : lev) : rep := mkRep (heap s) (best s) (lastrep s) (sched s) (inprog s) (runs s) (aborted s) (log s ++ [e]).
(** Individual.blacklist (individual.py:244-250) on the heap *)
Definition r_blacklist (s : rep) (i : nat) : rep :=
  mkRep (fun j => if j =? i then ind_blacklist (heap s i) else heap s j) (best s) (lastrep s) (sched s) (inprog s) (runs s) (aborted s) (log s).

(** truth of an individual or None (report.py:159, 184, 230) *)
Definition truthy (h : nat -> indiv) (o : option nat) : bool := match o with Some i => ind_bool (h i) | None => false end.
(** i less than an individual (report.py:184, 244) *)
Definition lt_best (h : nat -> indiv) (i : nat) (o : option nat) : bool := match o with Some b => ind_lt (h i) (h b) | None => false end.
(** i equal to an individual (report.py:159, 230) *)
Definition eq_opt (h : nat -> indiv) (i : nat) (o : option nat) : bool := match o with Some j => ind_eq (h i) (h j) | None => false end.

(** calling the next callback (report.py:163-167); it always gives a deferred
    result here, an immediate one being the schedule in which the result comes
    before anything else *)
Definition call_cb (s : rep) (i k : nat) (pb : option nat) : rep * option run :=
  (emit s (ECall k i (ind_SSE (heap s i))), Some (mkRun i k pb PCallback)).
(** the while loop (report.py:157-161) from its test on, with iPrev; [None]: the
    run is finished (186-187).  Having popped the bag, another round can only
    find it empty *)
Definition while_loop (s : rep) (iPrev : option nat) (pb : option nat) : rep * option run :=
  if aborted s then (set_inprog s false, None) else
  match sched s with
  | None => (set_inprog s false, None)
  | Some i =>
    let s := set_sched s None in
    if truthy (heap s) iPrev && eq_opt (heap s) i iPrev then (set_inprog s false, None)
    else if ncb =? 0 then (set_inprog s false, None)
    else call_cb s i 0 pb
  end.
(** the for loop (report.py:162-163) from callback [k] on *)
Definition for_loop (s : rep) (i k : nat) (pb : option nat) : rep * option run :=
  if aborted s then while_loop s (Some i) pb
  else if k <? ncb then call_cb s i k pb
  else while_loop s (Some i) pb.
(** runCallbacks (report.py:117-192) *)
Definition run_callbacks (s : rep) (i : nat) (pb : option nat) : rep :=
  let s := emit (set_sched s (Some i)) (ESched i) in
  if inprog s then s else
  let (s, r) := while_loop (set_inprog s true) None pb in
  match r with Some r => set_runs s (runs s ++ [r]) | None => s end.

(** newBest (report.py:201-254) *)
Definition new_best (s : rep) (i : nat) (force : bool) : rep :=
  let isBest := match best s with None => true | Some b => ind_lt (heap s i) (heap s b) end in
  let s := if isBest then set_best s (Some i) else s in
  let goAhead :=
    if truthy (heap s) (lastrep s) && eq_opt (heap s) i (lastrep s) then false
    else if force then true
    else if negb isBest then false
    else negb (is_equiv (Some (heap s i)) (option_map (heap s) (lastrep s))) in
  if goAhead then
    let s := set_lastrep s (Some i) in
    run_callbacks s i (best s)
  else s.

(** __call__ (report.py:372-465): the state, the symbols shown, the ratio
    returned and whether the bonus p.replacement(1) is given *)
Definition rep_call (s : rep) (i : nat) (other : option nat) (noProgress force : bool) : rep * list string * option f64 * bool :=
  let show (l : list string) := if noProgress then [] else l in
  match other with
  | None =>
    if negb (ind_bool (heap s i)) then (s, show ["%"], None, false)
    else match best s with
         | None => (new_best s i force, show ["*"], None, false)
         | Some b =>
           if ind_lt (heap s i) (heap s b) || force then (new_best s i force, show ["!"], None, false)
           else (s, show [snd (msg_ratio (heap s i) (heap s b) "#")], None, false)
         end
  | Some o =>
    let (rir, sym) := msg_ratio (heap s o) (heap s i) "!" in
    if match best s with None => true | Some b => ind_lt (heap s i) (heap s b) end
    then (new_best s i force, show [sym; "+"], rir, true)
    else (s, show [sym], rir, false)
  end.

(** Population.report (population.py:996-1028): the ratings passed to
    replacement, in order; [pbest] is Population.best() *)
Definition pop_report (s : rep) (pbest : nat) (iNew iOld : option nat) (noProgress force : bool) : res (rep * list string * list f64) :=
  if aborted s then Ok (s, [], []) else
  let go i noProgress force :=
    let '(s, syms, ratio, bonus) := rep_call s i iOld noProgress force in
    Ok (s, syms, (if bonus : bool then [fone] else []) ++ match ratio with Some r => [r] | None => [] end)%list in
  match iNew, iOld with
  | None, None => go pbest true true
  | Some i, _ => go i noProgress force
  | None, Some _ => Raise AttributeError
  end.

(** ** Schedules *)
(** result of a callback: None, anything else, an error (report.py:166-171) *)
Inductive cbres : Set := CbNone | CbComplains | CbFails.
(** the events of a schedule: a report, the end of a callback or of complaintCallback, and abort (report.py:77-82, 167-174, 372-465) *)
Inductive revent : Set :=
| RCall (i : nat) (other : option nat) (noProgress force : bool)  (* a report *)
| RDone (n : nat) (r : cbres)        (* the callback of the n-th run comes back *)
| RComplained (n : nat) (ok : bool)  (* the complaintCallback (or debugger) comes back or raises *)
| RAbort.                            (* the population is aborted *)
(** the run number n goes on, or is over: report.py:151-187 *)
Definition replace_run (s : rep) (n : nat) (r : option run) : rep :=
  set_runs s (firstn n (runs s) ++ (match r with Some r => [r] | None => [] end) ++ skipn (S n) (runs s))%list.
(** one event (report.py:77-82, 151-192, 372-465) *)
Definition rep_step (s : rep) (e : revent) : rep :=
  match e with
  | RCall i other noProgress force => fst (fst (fst (rep_call s i other noProgress force)))
  | RDone n r =>
    match nth_error (runs s) n with
    | Some (mkRun i k pb PCallback) =>
      match r with
      | CbFails =>   (* report.py:168-170: abort, break *)
        let (s, r) := while_loop (set_aborted s true) (Some i) pb in replace_run s n r
      | CbComplains =>
        if ind_bool (heap s i) && negb (aborted s)
        then replace_run (emit s (EComplaint i)) n (Some (mkRun i k pb PComplaint))   (* 171-174 *)
        else let (s, r) := for_loop s i (S k) pb in replace_run s n r
      | CbNone => let (s, r) := for_loop s i (S k) pb in replace_run s n r
      end
    | _ => s
    end
  | RComplained n ok =>
    match nth_error (runs s) n with
    | Some (mkRun i k pb PComplaint) =>
      if ok then                                                                     (* 183-185 *)
        let s := r_blacklist s i in
        let s := if truthy (heap s) pb && match pb with Some p => lt_best (heap s) p (best s) | None => false end
                 then set_best s pb else s in
        let (s, r) := for_loop s i (S k) pb in replace_run s n r
      else replace_run s n (Some (mkRun i k pb PDead))
    | _ => s
    end
  | RAbort => set_aborted s true
  end.
(** events one after another (report.py:77-82, 151-192, 372-465) *)
Fixpoint rep_exec (s : rep) (es : list revent) : rep :=
  match es with [] => s | e :: es => rep_exec (rep_step s e) es end.
End Rep.
