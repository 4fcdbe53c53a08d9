(** * Model of Population.setup (ade/population.py:740-846) with
    Individual.evaluate, Population.clear, abort and initialize as far as setup
    uses them.

    The reactor is single threaded.  An event is the code that runs from one
    yield (or the head of the while loop in populate) to the next, the code run
    when an evaluation finishes, or a call of Population.abort from elsewhere. *)
From Coq Require Import String List Bool Arith.
From Verif Require Import Flt Py IndivModel ParamModel.
Import ListNotations.

Section Setup.
(** the population's parameter manager (bounds and names) and constraints *)
Variable p : pm.
Variable cs : list constr.
(** self.Np, self.N_maxParallel (12, population.py:393), self.maxTries (2000,
    population.py:388) and the keyword blank *)
Variable Np maxPar maxTries : nat.
Variable blank : bool.
(** the unit hypercubes, in the order drawn: np.random.uniform or pyDOE's lhs
    (population.py:770-772); [iv g] lists the rows *)
Variable iv : nat -> list (list f64).

(** ParameterManager.fromUnity on one row (population.py:172-181, 773) *)
Definition from_unity (u : list f64) : list f64 := map3 fromUnity1 (pm_mins p) (pm_maxs p) u.

(** kIV = [k, IV] (population.py:768-781); the matrix is represented by its
    number *)
Record src : Set := mkSrc { src_k : nat; src_g : nat }.

(** getNextIV (population.py:775-781) *)
Definition next_iv (x : src) : src * res (list f64) :=
  let x := if Nat.eqb (src_k x + 1) (length (iv (src_g x))) then mkSrc 0 (S (src_g x)) else x in
  (mkSrc (S (src_k x)) (src_g x),
   match nth_error (iv (src_g x)) (src_k x) with
   | Some u => Ok (from_unity u)
   | None => Raise IndexError
   end).

(** the for loop of getIndividual (population.py:784-788): values and whether
    the loop ended by break.  The variable [values] is unbound when maxTries
    is 0 *)
Fixpoint tries (n : nat) (x : src) (last : option (list f64)) : src * res (list f64 * bool) :=
  match n with
  | O => (x, match last with Some v => Ok (v, false) | None => Raise UnboundLocalError end)
  | S n =>
    match next_iv x with
    | (x, Raise e) => (x, Raise e)
    | (x, Ok v) =>
      match passesConstraints (pm_names p) cs v with
      | Raise e => (x, Raise e)
      | Ok true => (x, Ok (v, true))
      | Ok false => tries n x (Some v)
      end
    end
  end.

(** where populate (population.py:815-832) is *)
Inductive spc : Set :=
| PHead                       (** before the test of the while loop *)
| PFewer                      (** yield dt.deferUntilFewer(self.N_maxParallel) *)
| PWait (n : nat)             (** yield d, for candidate n *)
| PAll                        (** yield dt.deferToAll() *)
| PFired (r : option bool)    (** setup's deferred fired with True or None *)
| PFailed (e : exn).          (** setup's deferred failed *)

(** [s_run]: self.running.  [s_inds]: every individual made so far, in order;
    the other fields refer to them by number (objects are shared).
    [s_list]: self.iList.  [s_fly]: evaluations in progress.  [s_trk]: the
    tracked deferreds that have not fired (DeferredTracker of asynqueue).
    [s_args]: what the user's function was called with, newest first (population.py:740-846) *)
Record sst : Type := mkS {
  s_run : option bool;
  s_src : src;
  s_inds : list indiv;
  s_list : list nat;
  s_fly : list nat;
  s_trk : list nat;
  s_k : nat;
  s_args : list (option (list f64));
  s_pc : spc
}.

(** running() (population.py:765-766) *)
Definition is_run (r : option bool) : bool := match r with Some false => false | _ => true end.

(** populate goes to another place (population.py:815-832) *)
Definition set_pc (s : sst) (q : spc) : sst :=
  mkS (s_run s) (s_src s) (s_inds s) (s_list s) (s_fly s) (s_trk s) (s_k s) (s_args s) q.
(** kIV changes (population.py:769-780) *)
Definition set_src (s : sst) (x : src) : sst :=
  mkS (s_run s) x (s_inds s) (s_list s) (s_fly s) (s_trk s) (s_k s) (s_args s) (s_pc s).
(** Population.abort (population.py:712-728).  Simplified: the reporter's abort
    and the release of locks (all free during setup) do not change this state *)
Definition s_abort (s : sst) : sst :=
  mkS (Some false) (s_src s) (s_inds s) (s_list s) (s_fly s) (s_trk s) (s_k s) (s_args s) (s_pc s).

(** the call setup() with self.running being [run] (population.py:839-842).
    clear (672-686) empties iList and sets running to None; it is not called
    when iList is empty already, and then running may also stay True, which
    setup does not distinguish from None.  Evaluations of an earlier setup are
    taken to be finished *)
Definition setup_start (run : option bool) : sst :=
  if is_run run then mkS (match run with Some true => None | r => r end) (mkSrc 0 0) [] [] [] [] 0 [] PHead
  else mkS run (mkSrc 0 0) [] [] [] [] 0 [] (PFired None).

(** one round of the while loop (population.py:817-832) *)
Definition head (s : sst) : sst :=
  if negb (is_run (s_run s)) || negb (length (s_list s) <? Np) then set_pc s PAll
  else
    match tries maxTries (s_src s) None with
    | (x, Raise e) => set_pc (set_src s x) (PFailed e)
    | (x, Ok (v, found)) =>
      let s := set_src s x in
      let s := if found then s else s_abort s in
      (* Individual(self, self.pm.limit(values)), population.py:792 *)
      match ind_new (length (pm_mins p)) (pm_limit p v) with
      | Raise e => set_pc s (PFailed e)
      | Ok i =>
        let n := length (s_inds s) in
        if blank then
          mkS (s_run s) (s_src s) (s_inds s ++ [ind_setSSE i (Some finf)]) (s_list s ++ [n])
              (s_fly s) (s_trk s) (s_k s) (s_args s) PHead
        else
          (* i.evaluate() starts; k += 1 *)
          let a := eval_arg (mkEvpop (s_run s) 0) i in
          if S (s_k s) <? Np then
            mkS (s_run s) (s_src s) (s_inds s ++ [i]) (s_list s) (s_fly s ++ [n]) (s_trk s ++ [n])
                (S (s_k s)) (a :: s_args s) PFewer
          else
            mkS (s_run s) (s_src s) (s_inds s ++ [i]) (s_list s) (s_fly s ++ [n]) (s_trk s)
                (S (s_k s)) (a :: s_args s) (PWait n)
      end
    end.

(** what self.reporter(i) does to an individual just evaluated
    (population.py:811): nothing, a callback's complaint blacklists it before
    the call returns, or an exception, which ends [evaluated] and is printed by
    oops *)
Inductive repres : Set := RpFine | RpComplain | RpRaise.

(** the tracker forgets a deferred that fired (population.py:829-832, library code) *)
Definition remove_n (n : nat) (l : list nat) : list nat := filter (fun m => negb (Nat.eqb m n)) l.

(** an evaluation's deferred fires: Individual.evaluate's done/failed
    (individual.py:286-295), then evaluated (population.py:806-813), then the
    tracker's own callback.  [t]: elapsed time *)
Definition eval_done (s : sst) (n : nat) (r : evalres) (t : f64) (rp : repres) : sst :=
  match nth_error (s_inds s) n with
  | None => s
  | Some i =>
    let i := snd (evaluate (fun _ => r) t (mkEvpop (s_run s) 0) i) in
    let s := mkS (s_run s) (s_src s) (upd n i (s_inds s)) (s_list s) (remove_n n (s_fly s)) (remove_n n (s_trk s))
                 (s_k s) (s_args s) (s_pc s) in
    if negb (ind_bool i) then s_abort s
    else
      match rp with
      | RpRaise => s
      | _ =>
        let i := match rp with RpComplain => ind_blacklist i | _ => i end in
        let l := if negb (isinf (ind_SSE i)) && (length (s_list s) <? Np) then s_list s ++ [n] else s_list s in
        mkS (s_run s) (s_src s) (upd n i (s_inds s)) l (s_fly s) (s_trk s) (s_k s) (s_args s) (s_pc s)
      end
  end.

(** done (population.py:834-837) with initialize (730-738); its repr(self) is
    not modelled *)
Definition finish (s : sst) : sst :=
  if is_run (s_run s) then
    mkS (Some true) (s_src s) (s_inds s) (s_list s) (s_fly s) (s_trk s) (s_k s) (s_args s) (PFired (Some true))
  else set_pc s (PFired None).

(** the events (population.py:806-846, individual.py:286-295) *)
Inductive sev : Set :=
| SHead
| SFewer                      (** the tracker's deferUntilFewer fires *)
| SWaited                     (** the awaited evaluation's deferred has fired *)
| SAll                        (** the tracker's deferToAll fires *)
| SDone (n : nat) (r : evalres) (t : f64) (rp : repres)
| SAbort                      (** Population.abort called from elsewhere *)
| SComplain (n : nat).        (** a report callback that took its time complains
                                  about individual n *)

(** one event (population.py:806-846); None if it cannot happen in the state *)
Definition sstep (s : sst) (e : sev) : option sst :=
  match e, s_pc s with
  | SHead, PHead => Some (head s)
  | SFewer, PFewer => if length (s_trk s) <? maxPar then Some (set_pc s PHead) else None
  | SWaited, PWait n => if existsb (Nat.eqb n) (s_fly s) then None else Some (set_pc s PHead)
  | SAll, PAll => match s_trk s with [] => Some (finish s) | _ => None end
  | SDone n r t rp, _ => if existsb (Nat.eqb n) (s_fly s) then Some (eval_done s n r t rp) else None
  | SAbort, _ => Some (s_abort s)
  | SComplain n, _ =>
    match nth_error (s_inds s) n with
    | Some i => if existsb (Nat.eqb n) (s_fly s) then None
                else Some (mkS (s_run s) (s_src s) (upd n (ind_blacklist i) (s_inds s)) (s_list s) (s_fly s) (s_trk s)
                               (s_k s) (s_args s) (s_pc s))
    | None => None
    end
  | _, _ => None
  end.

(** events one after another (population.py:806-846) *)
Fixpoint sexec (s : sst) (es : list sev) : option sst :=
  match es with
  | [] => Some s
  | e :: es => match sstep s e with Some s' => sexec s' es | None => None end
  end.
End Setup.
