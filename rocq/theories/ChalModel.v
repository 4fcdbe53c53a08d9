(** * Model of concurrent challenges: DifferentialEvolution.challenge and
    shutdown (ade/de.py:423-442, 464-563) with the slot locks of Population
    (ade/population.py:1126-1169, abort 712-728) and Twisted's DeferredLock.

    The reactor is single threaded, so the code between two yields runs
    without interruption, except that releasing a lock may synchronously resume
    the challenge that gets it.  Each event below is a piece of code with no
    such hand-over inside; every real execution, nested resumption included, is
    one of the event sequences of this model (which allows more orders). *)
From Coq Require Import List Bool Arith.
From Verif Require Import Py.
Import ListNotations.

Section Challenge.
(** individuals are abstract here; ChalProps.v instantiates them *)
Context {I : Type}.

(** outcome of mutation, crossover, limit and passesConstraints (de.py:532-536) *)
Inductive mkres : Type :=
| Rejected                 (** passesConstraints false *)
| Candidate (i : I)
| MkCrash.                 (** a constraint callable raised *)

(** Random draws and user code are functions of the challenge's number [c] (the
    position in the order in which challenges were started) and of what the code
    passes in.
    [mk c target base i0 i1]; [ev c target challenger] is the evaluated
    challenger, or None if it failed (python: it is false); [better] is "<" *)
Variable mk : nat -> I -> I -> I -> I -> mkres.
Variable ev : nat -> I -> I -> option I.
Variable better : I -> I -> bool.
(** whether history.add of the losing challenger [c] raises (de.py:551-552) *)
Variable histcrash : nat -> bool.
(** the xSSE option (de.py:539-541, 547) *)
Variable xSSE : bool.

(** indices target, base and the two others (de.py:510-515) *)
Record quad : Set := mkQuad { kt : nat; kb : nat; k0 : nat; k1 : nat }.
(** the indices locked (de.py:515) *)
Definition quad_list (q : quad) : list nat := [kt q; kb q; k0 q; k1 q].

(** where a challenge is in de.py:510-563 *)
Inductive pc : Type :=
| PWait (pend : list nat)                  (** line 515: lock deferreds not fired yet *)
| PRelAll (l : list nat)                   (** line 521, p.release(): locks still to visit *)
| PRel (it ib i0 i1 : I) (l : list nat)    (** line 530, p.release(kb,k0,k1): still to release *)
| PEval (it ch : I)                        (** lines 539-541: evaluation running *)
| PHist                                    (** line 551: history.add running *)
| PRelT                                    (** line 563: about to release the target *)
| PDone
| PFail.                                   (** an exception ended the challenge *)

(** de.py:464-563 *)
Record chal : Type := mkChal { cq : quad; cpc : pc }.

(** [locks]: one queue of challenge numbers per slot; the head holds the
    DeferredLock, the rest is its waiting list (twisted.internet.defer.DeferredLock:
    acquire appends, release hands over to the first waiter).
    [run]: DifferentialEvolution.running; [prun]: population.running is not False;
    [abq]: locks that running Population.abort calls still have to visit
    (population.py:1126-1169, de.py:423-442) *)
Record st : Type := mkSt {
  pop : list I;
  locks : list (list nat);
  cs : list chal;
  run : bool;
  prun : bool;
  abq : list nat
}.

(** a challenge goes on (de.py:510-563) *)
Definition set_pc (c : nat) (p : pc) (l : list chal) : list chal :=
  match nth_error l c with Some x => upd c (mkChal (cq x) p) l | None => l end.

(** the deferred of the new holder fires (de.py:515) *)
Definition grant (k : nat) (x : chal) : chal :=
  match cpc x with
  | PWait pend => mkChal (cq x) (PWait (filter (fun k' => negb (Nat.eqb k' k)) pend))
  | _ => x
  end.

(** tryRelease (population.py:1160-1162) with DeferredLock.release *)
Definition release1 (k : nat) (s : st) : st :=
  match nth_error (locks s) k with
  | None | Some [] => s
  | Some (_ :: rest) =>
    let cs' := match rest with
               | [] => cs s
               | h :: _ => match nth_error (cs s) h with
                           | Some x => upd h (grant k x) (cs s)
                           | None => cs s
                           end
               end in
    mkSt (pop s) (upd k rest (locks s)) cs' (run s) (prun s) (abq s)
  end.

(** the state with other challenges (de.py:510-563) *)
Definition with_cs (s : st) (l : list chal) : st :=
  mkSt (pop s) (locks s) l (run s) (prun s) (abq s).
(** challenge number c goes on to p (de.py:510-563) *)
Definition goto (s : st) (c : nat) (p : pc) : st := with_cs s (set_pc c p (cs s)).

(** DeferredLock.acquire on the queues of the four slots (population.py:1141-1149) *)
Definition enqueue (c : nat) (ks : list nat) (ls : list (list nat)) : list (list nat) :=
  fold_left (fun ls k => match nth_error ls k with Some Q => upd k (Q ++ [c]) ls | None => ls end) ks ls.

(** what can happen next: pieces of de.py:510-563, 423-442 and population.py:712-728, 1160-1169 *)
Inductive event : Set :=
| ERequest (q : quad)       (** challenge(kt, kb) called, k0, k1 drawn, locks requested: de.py:510-515 *)
| EResume (c : nat)         (** all four locks granted: de.py:516-523 *)
| ERelease (c : nat)        (** next release in p.release(...) *)
| EMutate (c : nat)         (** de.py:532-536 *)
| EEvalDone (c : nat)       (** the evaluation's deferred fires: de.py:542-559 *)
| EHistDone (c : nat)
| ERelT (c : nat)           (** de.py:563 *)
| EShutdown                 (** DifferentialEvolution.shutdown, de.py:423-442 *)
| EPopAbort                 (** Population.abort begins: population.py:712-723; through
                                the reporter it runs twice: two such events *)
| EAbortRel (n : nat).      (** one of the pending visits of population.py:1168-1169 *)

(** four different valid indices (property C12 for the code) (de.py:510-514) *)
Definition okquad (n : nat) (q : quad) : bool :=
  (kt q <? n) && (kb q <? n) && (k0 q <? n) && (k1 q <? n) &&
  negb (kt q =? kb q) && negb (kt q =? k0 q) && negb (kt q =? k1 q) &&
  negb (kb q =? k0 q) && negb (kb q =? k1 q) && negb (k0 q =? k1 q).

(** whether the lock of slot k is held (population.py:1160-1162) *)
Definition nonempty_lock (ls : list (list nat)) (k : nat) : bool :=
  match nth_error ls k with Some (_ :: _) => true | _ => false end.

(** [None]: the event cannot happen in this state
    (de.py:510-563, 423-442, population.py:712-728, 1160-1169) *)
Definition step (s : st) (e : event) : option st :=
  match e with
  | ERequest q =>
    if run s && okquad (length (pop s)) q then
      let c := length (cs s) in
      if prun s then
        (* population.py:1140-1150 *)
        Some (mkSt (pop s) (enqueue c (quad_list q) (locks s))
                (cs s ++ [mkChal q (PWait (filter (nonempty_lock (locks s)) (quad_list q)))])
                (run s) (prun s) (abq s))
      else
        (* population.py:1138-1139: fires at once, nothing acquired *)
        Some (with_cs s (cs s ++ [mkChal q (PWait [])]))
    else None
  | EResume c =>
    match nth_error (cs s) c with
    | Some (mkChal q (PWait [])) =>
      if run s then
        match nth_error (pop s) (kt q), nth_error (pop s) (kb q),
              nth_error (pop s) (k0 q), nth_error (pop s) (k1 q) with
        | Some it, Some ib, Some i0, Some i1 =>
          Some (goto s c (PRel it ib i0 i1 [kb q; k0 q; k1 q]))
        | _, _, _, _ => Some (goto s c (PRelAll (seq 0 (length (locks s)))))
        end
      else Some (goto s c (PRelAll (seq 0 (length (locks s)))))
    | _ => None
    end
  | ERelease c =>
    match nth_error (cs s) c with
    | Some (mkChal q (PRelAll (k :: l))) => Some (release1 k (goto s c (PRelAll l)))
    | Some (mkChal q (PRelAll [])) => Some (goto s c PDone)
    | Some (mkChal q (PRel it ib i0 i1 (k :: l))) => Some (release1 k (goto s c (PRel it ib i0 i1 l)))
    | _ => None
    end
  | EMutate c =>
    match nth_error (cs s) c with
    | Some (mkChal q (PRel it ib i0 i1 [])) =>
      match mk c it ib i0 i1 with
      | Rejected => Some (goto s c PRelT)
      | Candidate ch => Some (goto s c (PEval it ch))
      | MkCrash => Some (goto s c PFail)
      end
    | _ => None
    end
  | EEvalDone c =>
    match nth_error (cs s) c with
    | Some (mkChal q (PEval it ch)) =>
      match ev c it ch with
      | Some r =>
        if run s then
          if better r it then
            let s := goto s c PRelT in
            Some (mkSt (upd (kt q) r (pop s)) (locks s) (cs s) (run s) (prun s) (abq s))
          else Some (goto s c (if xSSE then PRelT else PHist))
        else Some (goto s c PRelT)
      | None =>
        let s := goto s c PRelT in
        Some (mkSt (pop s) (locks s) (cs s) false (prun s) (abq s))
      end
    | _ => None
    end
  | EHistDone c =>
    match nth_error (cs s) c with
    | Some (mkChal q PHist) => Some (goto s c (if histcrash c then PFail else PRelT))
    | _ => None
    end
  | ERelT c =>
    match nth_error (cs s) c with
    | Some (mkChal q PRelT) => Some (release1 (kt q) (goto s c PDone))
    | _ => None
    end
  | EShutdown => Some (mkSt (pop s) (locks s) (cs s) false (prun s) (abq s))
  | EPopAbort => Some (mkSt (pop s) (locks s) (cs s) (run s) false (abq s ++ seq 0 (length (locks s))))
  | EAbortRel n =>
    match nth_error (abq s) n with
    | Some k => Some (release1 k (mkSt (pop s) (locks s) (cs s) (run s) (prun s)
                                    (firstn n (abq s) ++ skipn (S n) (abq s))))
    | None => None
    end
  end.

(** any sequence of such events (de.py:423-563) *)
Fixpoint exec (s : st) (es : list event) : option st :=
  match es with
  | [] => Some s
  | e :: es => match step s e with Some s' => exec s' es | None => None end
  end.

(** a set-up population: all locks free, no challenge yet (population.py:794-801) *)
Definition init (p : list I) : st := mkSt p (repeat [] (length p)) [] true true [].
End Challenge.
Arguments mkres : clear implicits.
Arguments Rejected {I}.
Arguments MkCrash {I}.
Arguments pc : clear implicits.
Arguments chal : clear implicits.
Arguments st : clear implicits.
