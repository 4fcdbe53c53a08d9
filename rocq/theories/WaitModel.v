(** * Model of waiting for reports and history updates: Population.waitForReports,
    History.shutdown, the history's DeferredLock and Reporter.waitForCallbacks.

    Lines cited are those of /repo/ade.  Simplified: each operation on the history takes
    effect in one step while it holds the lock (nothing else changes the history in between,
    see HistModel.v), at any time after it got the lock.  The library's DeferredLock is first
    come, first served; its DeferredTracker's deferToAll fires when the Deferreds put and not
    yet fired have fired, or when quitWaiting is called: both are assumptions on libraries that
    are not in /repo.  A population is set up once and not started again after an abort. *)
From Coq Require Import List Bool Arith ZArith Lia.
From Verif Require Import Flt Py HistModel.
Import ListNotations.
Local Open Scope nat_scope.

(** who asked for the history's lock: an operation, or a wait (history.py:881-885, 914-1124) *)
Inductive job : Type := JOp (op : hop) | JWait (id : nat).

(** the history, the lock's queue (its head has the lock), whether a run of report callbacks is
    in progress (report.py:71-73, 185-192), the waits in the order of the calls, each with its
    two parts (population.py:1037-1038), and the population's flag (population.py:681, 720, 737) *)
Record wst : Type := mkW { wh : hist; wq : list job; wrep : bool; waits : list (bool * bool); wrun : option bool }.

(** a new population (population.py:436-460, history.py:834-844) *)
Definition w_init (nd nm : nat) : wst := mkW (h_init nd nm) [] false [] None.

(** what happens: the population has been set up (population.py:730-738); an operation on the
    history is requested (population.py:542-543, 801, de.py:551); the operation with the lock
    ends; waitForReports is called; a run of report callbacks starts or ends
    (report.py:144-192); abort (population.py:712-728, report.py:77-82) *)
Inductive ev : Type :=
| EInit | EReq (op : hop) | EDone | EWait | ERepStart | ERepEnd | EAbort.

(** add returns before asking for the lock when the SSE is not finite (history.py:1049) *)
Definition takes_lock (op : hop) : bool := match op with OAdd sse _ _ _ => isfin sse | _ => true end.

(** the waits at the head of the queue get the lock and release it at once (history.py:883-885) *)
Fixpoint drain (q : list job) : list nat * list job :=
  match q with
  | JWait id :: q => let (ids, q') := drain q in (id :: ids, q')
  | _ => ([], q)
  end.
(** the history part of a wait is done (population.py:1037-1038) *)
Fixpoint set_hist (id : nat) (ws : list (bool * bool)) : list (bool * bool) :=
  match ws, id with
  | [], _ => []
  | (_, r) :: ws, O => (true, r) :: ws
  | w :: ws, S id => w :: set_hist id ws
  end.
(** the report part of all waits is done (report.py:194-199, 82) *)
Definition set_rep (ws : list (bool * bool)) : list (bool * bool) := map (fun w => (fst w, true)) ws.
(** the Deferred of waitForReports has fired (population.py:1037-1038) *)
Definition fired (s : wst) (id : nat) : Prop := nth_error (waits s) id = Some (true, true).

Section Hash.
(** hash(i) (individual.py:189-191) *)
Variable hash : ind -> Z.

(** one event; None if it cannot happen.  An operation that fails to release the lock keeps its
    place at the head of the queue (history.py:1050-1069) *)
Definition w_step (s : wst) (e : ev) : option wst :=
  match e with
  | EInit => match wrun s with None => Some (mkW (wh s) (wq s) (wrep s) (waits s) (Some true)) | _ => None end
  | EReq op => Some (if takes_lock op then mkW (wh s) (wq s ++ [JOp op]) (wrep s) (waits s) (wrun s) else s)
  | EDone =>
    match wq s with
    | JOp op :: q =>
      if locked (wh s) then None else
      let h := fst (hstep hash (wh s) op) in
      if locked h then Some (mkW h (wq s) (wrep s) (waits s) (wrun s))
      else let (ids, q') := drain q in
           Some (mkW h q' (wrep s) (fold_left (fun ws id => set_hist id ws) ids (waits s)) (wrun s))
    | _ => None
    end
  | EWait =>
    match wrun s with
    | Some true =>
      let free := match wq s with [] => true | _ => false end in
      Some (mkW (wh s) (if free then wq s else wq s ++ [JWait (length (waits s))]) (wrep s)
                (waits s ++ [(free, negb (wrep s))]) (wrun s))
    | _ => Some (mkW (wh s) (wq s) (wrep s) (waits s ++ [(true, true)]) (wrun s))
    end
  | ERepStart => if wrep s then None else Some (mkW (wh s) (wq s) true (waits s) (wrun s))
  | ERepEnd => if wrep s then Some (mkW (wh s) (wq s) false (set_rep (waits s)) (wrun s)) else None
  | EAbort => Some (mkW (wh s) (wq s) (wrep s) (set_rep (waits s)) (Some false))
  end.
(** a sequence of events (population.py, history.py, report.py) *)
Fixpoint w_run (s : wst) (es : list ev) : option wst :=
  match es with
  | [] => Some s
  | e :: es => match w_step s e with Some s => w_run s es | None => None end
  end.
End Hash.
