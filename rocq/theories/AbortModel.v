(** * Model of ade/abort.py *)
From Coq Require Import List Bool Arith.
Import ListNotations.

(** A Keyboard object (abort.py:49-62): [k_open] for triggerID is not None.  The
    stdin transport and the reactor's event triggers are not modelled further *)
Record kbd : Set := mkKbd { k_open : bool; k_ignore : bool; k_cbs : list nat }.
(** Keyboard.__init__ (abort.py:54-62) *)
Definition new_kbd : kbd := mkKbd true false [].
(** delayed calls: a callback (abort.py:129) or KeyboardHolder.abortNow
    (abort.py:154) *)
Inductive delayed : Set := DFunc (f : nat) | DAbort.
(** All Keyboard objects constructed so far; KeyboardHolder.KB, the number of the
    current one; the reactor's delayed calls in order; which callbacks ran, in
    order; which were registered, in order.  Callbacks are numbers (abort.py:49-62, 99-114) *)
Record abst : Set := mkAb { kbs : list kbd; cur : option nat; pend : list delayed; ran : list nat; regd : list nat }.
(** nothing constructed yet: KeyboardHolder.KB is None (abort.py:104) *)
Definition ab_init : abst := mkAb [] None [] [] [].

(** assignment to an element of a list (here of the Keyboard objects, abort.py:58-60) *)
Definition set_nth {A} (l : list A) (n : nat) (x : A) : list A :=
  match nth_error l n with Some _ => firstn n l ++ x :: skipn (S n) l | None => l end.
(** changing attributes of Keyboard number n (abort.py:58-60, 78, 85) *)
Definition upd_kbd (s : abst) (n : nat) (g : kbd -> kbd) : abst :=
  match nth_error (kbs s) n with
  | Some k => mkAb (set_nth (kbs s) n (g k)) (cur s) (pend s) (ran s) (regd s)
  | None => s
  end.
(** KeyboardHolder.setKB (abort.py:112-114); also restart (abort.py:156-160) *)
Definition set_kb (s : abst) : abst := mkAb (kbs s ++ [new_kbd]) (Some (length (kbs s))) (pend s) (ran s) (regd s).
(** KeyboardHolder() (abort.py:105-110), without the signal handling *)
Definition holder (s : abst) : abst := match cur s with None => set_kb s | Some _ => s end.
(** Keyboard.shutdown (abort.py:72-79) *)
Definition kb_shutdown (s : abst) (n : nat) : abst := upd_kbd s n (fun k => mkKbd false (k_ignore k) (k_cbs k)).
(** Keyboard.addCallback of a callable (abort.py:64-70) *)
Definition add_cb (s : abst) (n f : nat) : abst := upd_kbd s n (fun k => mkKbd (k_open k) (k_ignore k) (k_cbs k ++ [f])).
(** reactor.callLater(0, ...) (abort.py:129, 154) *)
Definition later (s : abst) (d : delayed) : abst := mkAb (kbs s) (cur s) (pend s ++ [d]) (ran s) (regd s).
(** bookkeeping of the registered callbacks, for the statements (abort.py:125-130) *)
Definition note_reg (s : abst) (f : nat) : abst := mkAb (kbs s) (cur s) (pend s) (ran s) (regd s ++ [f]).
(** callOnAbort (abort.py:136-141, 125-130) of a callable *)
Definition call_on_abort (s : abst) (f : nat) : abst :=
  let s := note_reg (holder s) f in
  match cur s with
  | Some n => match nth_error (kbs s) n with
              | Some k => if k_open k then add_cb s n f else later s (DFunc f)
              | None => s
              end
  | None => s
  end.
(** shutdown (abort.py:143-147, 121-123) *)
Definition m_shutdown (s : abst) : abst := match cur s with Some n => kb_shutdown s n | None => s end.
(** abortNow (abort.py:149-154, 132-133) *)
Definition m_abort_now (s : abst) : abst := later (holder s) DAbort.
(** ignoreKeyboard (abort.py:162-167, 116-119, 81-85) *)
Definition m_ignore (s : abst) : abst :=
  let s := holder s in
  match cur s with Some n => upd_kbd s n (fun k => mkKbd (k_open k) true (k_cbs k)) | None => s end.

(** the module's functions, as callbacks may call them (abort.py:136-167) *)
Inductive act : Set := AReg (f : nat) | AShutdown | AAbortNow | ARestart | AIgnore.
(** one such call (abort.py:136-167) *)
Definition do_act (s : abst) (a : act) : abst :=
  match a with
  | AReg f => call_on_abort s f
  | AShutdown => m_shutdown s
  | AAbortNow => m_abort_now s
  | ARestart => set_kb s
  | AIgnore => m_ignore s
  end.
Section Ab.
(** what callback [f] does when it is run as the n-th one: calls of this
    module, and whether it then raises *)
Variable body : nat -> nat -> list act * bool.

(** running a callback: the state, and whether it raised (abort.py:95) *)
Definition run_cb (s : abst) (f : nat) : abst * bool :=
  let (acts, raises) := body f (length (ran s)) in
  (fold_left do_act acts (mkAb (kbs s) (cur s) (pend s) (ran s ++ [f]) (regd s)), raises).
(** the loop of Keyboard.dataReceived (abort.py:93-95); [None]: not finished
    within the fuel; the boolean: left by an exception *)
Fixpoint drain (fuel n : nat) (s : abst) : option (abst * bool) :=
  match fuel with
  | O => None
  | S fuel =>
    match nth_error (kbs s) n with
    | None => Some (s, false)
    | Some k =>
      match k_cbs k with
      | [] => Some (s, false)
      | f :: l =>
        let (s, raised) := run_cb (upd_kbd s n (fun k => mkKbd (k_open k) (k_ignore k) l)) f in
        if raised : bool then Some (s, true) else drain fuel n s
      end
    end
  end.
(** Keyboard.dataReceived (abort.py:87-96) *)
Definition data_received (fuel n : nat) (s : abst) : option abst :=
  match nth_error (kbs s) n with
  | None => Some s
  | Some k =>
    if k_ignore k then Some s else
    match drain fuel n s with
    | None => None
    | Some (s, true) => Some s
    | Some (s, false) => Some (kb_shutdown s n)
    end
  end.
(** the delayed calls that are due, one after the other; errors are logged by
    the reactor (abort.py:129, 154) *)
Fixpoint run_delayed (fuel : nat) (l : list delayed) (s : abst) : option abst :=
  match l with
  | [] => Some s
  | DFunc f :: l => run_delayed fuel l (fst (run_cb s f))
  | DAbort :: l =>
    match cur s with
    | Some n => match data_received fuel n s with Some s => run_delayed fuel l s | None => None end
    | None => run_delayed fuel l s
    end
  end.

(** events from outside: calls of the module, a key press, the reactor's turn (abort.py:87-96, 125-167) *)
Inductive aev : Set :=
| VCall (a : act)     (* a module function called by the application *)
| VKey (n : nat)      (* data for the n-th keyboard *)
| VTick               (* the reactor runs the delayed calls *)
| VStop.              (* reactor shutdown: the event triggers (abort.py:60-61) *)
(** abort.py:87-96, 125-167 *)
Definition ab_step (fuel : nat) (s : abst) (e : aev) : option abst :=
  match e with
  | VCall a => Some (do_act s a)
  | VKey n => data_received fuel n s
  | VTick => run_delayed fuel (pend s) (mkAb (kbs s) (cur s) [] (ran s) (regd s))
  | VStop => Some (fold_left kb_shutdown (seq 0 (length (kbs s))) s)
  end.
(** any sequence of such events (abort.py:87-167) *)
Fixpoint ab_exec (fuel : nat) (s : abst) (es : list aev) : option abst :=
  match es with
  | [] => Some s
  | e :: es => match ab_step fuel s e with Some s => ab_exec fuel s es | None => None end
  end.
End Ab.
