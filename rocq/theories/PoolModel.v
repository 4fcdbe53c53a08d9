(** * The pool of executables of the Goldstein-Price example
    (ade/examples/goldstein-price.py:118-191): MultiRunner and its Runners over
    the command protocol of ExamModel.v.

    A call is a number, and its answer the same number, as in ExamModel.v.  The
    DeferredQueue is Twisted's: get() gives the object put first, or waits until
    one is put; put() gives the object to the one waiting longest, if any, and
    raises QueueOverflow when [size] objects are in the queue already.  All
    executables have been started and their connections made. *)
From Coq Require Import Bool Arith List.
From Verif Require Import ExamModel.
Import ListNotations.

(** who waits for a runner (goldstein-price.py:176, 191): a call with two values;
    a call with None, as made by Population.evalFunc after an abort
    (population.py:662-670); the [j]-th shutdown *)
Inductive waiter : Type := WCall (c : nat) | WNone | WStop (j : nat).
(** [pexec]: the protocol of each runner (goldstein-price.py:130); [pqueue],
    [pwait]: pending and waiting of the DeferredQueue (166); [perr]: calls that
    ended with TypeError; [pstops]: for each shutdown, how many of its get() have
    not fired yet (175-178); [pover]: a put raised QueueOverflow; [ptrig]: the
    runners whose triggerID is None (139-142) *)
Record pool : Type := mkPool { pexec : nat -> ep; pqueue : list nat; pwait : list waiter; perr : nat;
  pstops : list nat; pover : bool; ptrig : list nat }.
(** one runner's protocol makes a step (goldstein-price.py:143, 151) *)
Definition on (r : nat) (e : eev) (f : nat -> ep) : nat -> ep := fun k => if Nat.eqb k r then ep_step (f k) e else f k.
(** the next of shutdown [j]'s get() has fired (goldstein-price.py:176-178) *)
Fixpoint got (j : nat) (l : list nat) : list nat :=
  match l with [] => [] | n :: l => match j with O => pred n :: l | S j => n :: got j l end end.
(** Runner.shutdown (goldstein-price.py:135-144) *)
Definition runner_shutdown (r : nat) (p : pool) : pool :=
  if existsb (Nat.eqb r) (ptrig p) then p
  else mkPool (on r EShutdown (pexec p)) (pqueue p) (pwait p) (perr p) (pstops p) (pover p) (r :: ptrig p).
(** DeferredQueue.put for runner [r], and what those waiting do with it: [size] is
    the size of the queue, [ws] those waiting (goldstein-price.py:169, 189) *)
Fixpoint put (size r : nat) (ws : list waiter) (p : pool) : pool :=
  match ws with
  | [] => if Nat.ltb (length (pqueue p)) size
          then mkPool (pexec p) (pqueue p ++ [r]) [] (perr p) (pstops p) (pover p) (ptrig p)
          else mkPool (pexec p) (pqueue p) [] (perr p) (pstops p) true (ptrig p)
  | WCall c :: ws => put size r ws (mkPool (on r (ECmd c) (pexec p)) (pqueue p) ws (perr p) (pstops p) (pover p) (ptrig p))
  | WNone :: ws => mkPool (pexec p) (pqueue p) ws (S (perr p)) (pstops p) (pover p) (ptrig p)
  | WStop j :: ws => let p := runner_shutdown r p in mkPool (pexec p) (pqueue p) ws (perr p) (got j (pstops p)) (pover p) (ptrig p)
  end.
(** DeferredQueue.get and the callback of whoever called it, which [put] runs as for
    the first of those waiting: MultiRunner.__call__ puts the runner back as soon as it was
    called; r of None raises TypeError before that; shutdown keeps it
    (goldstein-price.py:176, 187-191) *)
Definition get (size : nat) (w : waiter) (p : pool) : pool :=
  match pqueue p with
  | [] => mkPool (pexec p) [] (pwait p ++ [w]) (perr p) (pstops p) (pover p) (ptrig p)
  | r :: q => put size r (w :: pwait p) (mkPool (pexec p) q (pwait p) (perr p) (pstops p) (pover p) (ptrig p))
  end.
(** what can happen to the pool: a call, a call with None, an answer of runner
    [r]'s executable, a shutdown (goldstein-price.py:104-116, 170-191) *)
Inductive pev : Type := PCall (c : nat) | PNone | PReply (r : nat) | PStop.
(** the loop of shutdown (goldstein-price.py:175-177) *)
Fixpoint gets (size j n : nat) (p : pool) : pool := match n with O => p | S n => gets size j n (get size (WStop j) p) end.
(** __call__ and shutdown (goldstein-price.py:170-191), an answer (104-116) *)
Definition pool_step (size : nat) (p : pool) (e : pev) : pool :=
  match e with
  | PCall c => get size (WCall c) p
  | PNone => get size WNone p
  | PReply r => mkPool (on r EReply (pexec p)) (pqueue p) (pwait p) (perr p) (pstops p) (pover p) (ptrig p)
  | PStop => let j := length (pstops p) in
             gets size j size (mkPool (pexec p) (pqueue p) (pwait p) (perr p) (pstops p ++ [size]) (pover p) (ptrig p))
  end.
(** __init__ (goldstein-price.py:158-169), the connections made (83-89) *)
Definition pool_init (size : nat) : pool := mkPool (fun _ => ep_step ep_init EConnected) (seq 0 size) [] 0 [] false [].
(** any sequence of events (goldstein-price.py:118-191) *)
Definition pool_run (size : nat) (evs : list pev) : pool := fold_left (pool_step size) evs (pool_init size).
