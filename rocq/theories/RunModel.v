(** * Model of the generation loop: DifferentialEvolution._run and __call__
    (ade/de.py:565-683) and of Population.replacement, _keepStatusQuo
    (ade/population.py:876-994) *)
From Coq Require Import List Bool Arith ZArith.
From Verif Require Import Flt FltMore Py FManModel.
Import ListNotations.

(** ** Improvement score (population.py) *)
(** 0.5 (population.py:993) *)
Definition h_half : f64 := flit 1 (-1).
(** the addition for a ratio of zero (population.py:993) *)
Definition tenth : f64 := flit 3602879701896397 (-55).   (* 0.1 *)
(** population.py:885 *)
Definition npi : f64 := flit 884279719003555 (-48).      (* np.pi *)

Section Score.
(** np.sin on float64 *)
Variable npsin : f64 -> f64.

(** the part of the population used here: replacementScore and statusQuoScore.
    The int 0 that resets the score (population.py:981) is 0.0 here *)
Record score : Set := mkScore { rscore : option f64; sqs : f64 }.

(** the probability in _keepStatusQuo (population.py:885) *)
Definition keep_prob (x : f64) : f64 :=
  fadd h_half (fmul h_half (npsin (fmul npi (fsub x h_half)))).
(** _keepStatusQuo (population.py:876-886); [u] = np.random.random_sample() *)
Definition keep_sq (q : f64) (sc : f64) (u : f64) : res bool :=
  if feqb q fzero then Raise ZeroDivisionError else
  let x := fdiv sc q in
  if fltb fone x then Ok true else Ok (fltb u (keep_prob x)).

(** replacement (population.py:888-994), the three kinds of calls.  [rir] is an int *)
Inductive rcall : Set := CRir (rir : Z) | CSqs (x : f64) | CInq (u : f64).
(** what a ratio adds to the score (population.py:993) *)
Definition addition (rir : Z) : f64 := if (rir =? 0)%Z then tenth else fsub (fofZ rir) h_half.
(** the call without arguments (population.py:978-986) *)
Definition inquire (s : score) (u : f64) : score * res bool :=
  let s' := mkScore (Some fzero) (sqs s) in
  match rscore s with
  | None => (s', Ok true)
  | Some sc => (s', keep_sq (sqs s) sc u)
  end.
(** the method (population.py:975-994) *)
Definition replacement (s : score) (c : rcall) : score * option (res bool) :=
  match c with
  | CSqs x =>
    if feqb x fzero then let (s, r) := inquire s fzero in (s, Some r)
    else (mkScore (rscore s) x, None)
  | CInq u => let (s, r) := inquire s u in (s, Some r)
  | CRir rir => match rscore s with
                | None => (s, None)
                | Some sc => (mkScore (Some (fadd sc (addition rir))) (sqs s), None)
                end
  end.
(** calls one after another (population.py:888-994) *)
Fixpoint rcalls (s : score) (cs : list rcall) : score :=
  match cs with [] => s | c :: cs => rcalls (fst (replacement s c)) cs end.

(** ** One run (de.py) *)
(** what the challenges phase of a generation came to: all finished; one failed
    (errback); the run was shut down meanwhile (de.py:604-609) *)
Inductive chout : Set := ChDone | ChFailed | ChShut.
(** what the callback does: returns, calls shutdown, raises (de.py:629) *)
Inductive fout : Set := FOk | FShut | FRaise.
(** everything the environment decides in one generation:
    g_wait: nobody called shutdown while waiting for reports (de.py:586-587);
    g_loop: nobody called shutdown while the challenges were being started (600);
    g_chal: the challenges (604-609);
    g_rirs: the improvement ratios reported by this generation's challenges;
    g_u: the random number of the status quo inquiry;
    g_func: what the user's callback does (629) *)
Record gen : Set := mkGen { g_wait : bool; g_loop : bool; g_chal : chout; g_rirs : list Z; g_u : f64; g_func : fout }.

(** for the statements: what a run does visibly (de.py:585, 612-638) *)
Inductive ev : Set :=
| EStart (kg : nat)              (* generation begins *)
| EUp (kg : nat)                 (* fm.up *)
| EDown (kg : nat) (lim : bool)  (* fm.down, with fm.limited afterwards *)
| EFunc (kg : nat)               (* func(kg) *)
| EReport.                       (* final p.report() *)
Inductive reason : Set := RMaxIter | RShutdown | RDwell | RRaised (e : exn).

(** the options of the object used by a run (de.py:582, 611, 624-626) *)
Record opts : Set := mkOpts {
  o_maxiter : nat; o_bitter : bool; o_grave : Z; o_goal : option f64; o_func : bool }.

(** the state of the object used by a run: running, fm, dwellCount, and the population's score (de.py:565-638) *)
Record rst : Set := mkRst { r_run : bool; r_fm : fman; r_dwell : Z; r_score : score }.
(** shutdown as far as this state goes (de.py:438-439) *)
Definition stop_run (s : rst) : rst := mkRst false (r_fm s) (r_dwell s) (r_score s).

Variables up0 up1 : f64.

(** python truth of goalSSE (de.py:611) *)
Definition truthy_goal (g : option f64) : bool := match g with None => false | Some x => negb (feqb x fzero) end.

(** the end of one generation: func (de.py:629) *)
Definition call_func (o : opts) (kg : nat) (g : gen) (s : rst) (l : list ev) : rst * list ev * option reason :=
  if o_func o then
    match g_func g with
    | FOk => (s, l ++ [EFunc kg], None)
    | FShut => (stop_run s, l ++ [EFunc kg], None)
    | FRaise => (s, l ++ [EFunc kg], Some (RRaised UserError))
    end
  else (s, l, None).

(** body of the generation loop (de.py:583-629); [Some r]: left by break or exception.
    self.p.best < self.goalSSE (611) compares a bound method with a number *)
Definition generation (o : opts) (kg : nat) (g : gen) (s : rst) : rst * list ev * option reason :=
  let l := [EStart kg] in
  if negb (r_run s && g_wait g) then (stop_run s, l, Some RShutdown) else
  if negb (g_loop g) then (stop_run s, l, Some RShutdown) else
  match g_chal g with
  | ChFailed | ChShut => (stop_run s, l, Some RShutdown)
  | ChDone =>
    if truthy_goal (o_goal o) then (s, l, Some (RRaised TypeError)) else
    let (sc, ans) := inquire (rcalls (r_score s) (map CRir (g_rirs g))) (g_u g) in
    match ans with
    | Raise e => (mkRst (r_run s) (r_fm s) (r_dwell s) sc, l, Some (RRaised e))
    | Ok true =>
      let s := mkRst (r_run s) (fm_up up0 up1 (r_fm s)) 0 sc in
      call_func o kg g s (l ++ [EUp kg])
    | Ok false =>
      let fm := fm_down (r_fm s) in
      let l := l ++ [EDown kg (fm_limited fm)] in
      if negb (o_bitter o) && fm_limited fm then
        let d := (r_dwell s + 1)%Z in
        let s := mkRst (r_run s) fm d sc in
        if (o_grave o <? d)%Z then (s, l, Some RDwell)
        else call_func o kg g s l
      else call_func o kg g (mkRst (r_run s) fm (r_dwell s) sc) l
    end
  end.

(** for kg in range(maxiter) (de.py:582-630) *)
Fixpoint gens (o : opts) (rem kg : nat) (gs : nat -> gen) (s : rst) : rst * list ev * reason :=
  match rem with
  | O => (s, [], RMaxIter)
  | S rem =>
    match generation o kg (gs kg) s with
    | (s, l, Some r) => (s, l, r)
    | (s, l, None) => match gens o rem (S kg) gs s with (s', l', r) => (s', l ++ l', r) end
    end
  end.

(** the rest of _run (de.py:631-638): report and shutdown when still running; an
    exception skips it *)
Definition run (o : opts) (gs : nat -> gen) (s : rst) : rst * list ev * reason :=
  match gens o (o_maxiter o) 0 gs s with
  | (s, l, RRaised e) => (s, l, RRaised e)
  | (s, l, r) => if r_run s then (stop_run s, l ++ [EReport], r) else (s, l, r)
  end.

(** __call__ (de.py:670-683): [prun] is self.p.running (None or True: not False);
    [None]: returned at once.  [sc]: the population's score *)
Definition de_call (o : opts) (F : Fval) (CR : f64) (Np : Z) (adaptive : bool) (pstopped running : bool) (sc : score) (gs : nat -> gen)
  : option (rst * list ev * reason) :=
  if pstopped then None
  else Some (run o gs (mkRst running (fm_init F CR Np adaptive) 0 sc)).
End Score.
