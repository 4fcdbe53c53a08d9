(** * Model of when the image viewer is started and ended: ImageViewer
    (ade/image.py:37-171).  Which arguments it is given is in UtilModel.v.

    An event is a file notification (only while there is a notifier), the end of the
    process that was spawned last, a call of termViewer, or the shutdown of the
    reactor.  What the system says meanwhile is part of the event: whether the image
    is a file, which processes there are, which viewer programs exist, and the PID of
    a process spawned. *)
From Coq Require Import Bool Arith List.
Import ListNotations.
Local Open Scope nat_scope.

(** what is in the file at pidFilePath: no file; nothing but white space; text that is
    no integer; an integer (image.py:110-127) *)
Inductive pidfile : Type := NoFile | Blank | Junk | Pid (n : nat).
(** the number of programs in exList (image.py:56-59) *)
Definition viewers : nat := 2.
(** [ntf]: notifier is not None; [tr]: transport, with its pid, None once the process
    ended; [wait]: the place in exList whose process spawnViewer is waiting for.
    For the statements: the PIDs spawned, those sent the signal TERM, the number of
    calls of spawnViewer, and how often its loop ended with no viewer found (the message
    about it is left out if noComplain is set, image.py:164; messages are not modelled).
    Failures of spawnProcess and of writing the PID file are not modelled *)
Record vst : Type := mkV {
  ntf : bool; tr : option (option nat); pf : pidfile; wait : option nat;
  spawned : list nat; termed : list nat; calls : nat; complaints : nat }.
(** __init__ (image.py:75-87) and _startNotifier (89-103) *)
Definition v_init (f : pidfile) : vst := mkV true None f None [] [] 0 0.

(** processRunning (image.py:110-127): a blank file leaves PID unassigned, the
    exception of which is caught (125-126) *)
Definition processRunning (f : pidfile) (alive : nat -> bool) : bool :=
  match f with NoFile | Blank | Junk => false | Pid n => alive n end.

(** the loop of spawnViewer (image.py:145-165) from place [i] of exList on, [n] places
    being left, up to the yield or the end *)
Fixpoint spawn_from (n i : nat) (exists_ : nat -> bool) (pid : nat) (s : vst) : vst :=
  match n with
  | O => mkV (ntf s) (tr s) (pf s) None (spawned s) (termed s) (calls s) (S (complaints s))
  | S n =>
    if exists_ i then mkV (ntf s) (Some (Some pid)) (Pid pid) (Some i) (spawned s ++ [pid]) (termed s) (calls s) (complaints s)
    else spawn_from n (S i) exists_ pid s
  end.
(** the method (image.py:145-165) *)
Definition spawnViewer (exists_ : nat -> bool) (pid : nat) (s : vst) : vst :=
  spawn_from viewers 0 exists_ pid (mkV (ntf s) (tr s) (pf s) (wait s) (spawned s) (termed s) (S (calls s)) (complaints s)).
(** _stopNotifier (image.py:105-108), _startNotifier (99-103) *)
Definition set_ntf (b : bool) (s : vst) : vst := mkV b (tr s) (pf s) (wait s) (spawned s) (termed s) (calls s) (complaints s).
(** termViewer (image.py:167-171) *)
Definition termViewer (s : vst) : vst :=
  match tr s with
  | None => s
  | Some p => mkV (ntf s) None (pf s) (wait s) (spawned s) (termed s ++ match p with Some pid => [pid] | None => [] end) (calls s) (complaints s)
  end.

(** the events (image.py:89-108, 129-171) *)
Inductive vev : Type :=
| ENotify (isfile : bool) (alive exists_ : nat -> bool) (pid : nat)
| EEnd (stderr : bool) (exists_ : nat -> bool) (pid : nat)
| ETerm | EShutdown.
(** None: the event cannot happen in the state (image.py:89-108, 129-171) *)
Definition v_step (s : vst) (e : vev) : option vst :=
  match e with
  | ENotify isfile alive exists_ pid =>          (* notify, image.py:90-97 *)
    if ntf s then Some (
      match tr s with
      | None =>
        if isfile then (if processRunning (pf s) alive then s else set_ntf false (spawnViewer exists_ pid s)) else s
      | Some _ => if isfile then s else set_ntf true (termViewer s)
      end) else None
  | EEnd stderr exists_ pid =>                    (* processEnded, and the rest of spawnViewer, image.py:158-165 *)
    match wait s with
    | None => None
    | Some i =>
      let s := mkV (ntf s) (match tr s with Some _ => Some None | None => None end) (pf s) None (spawned s) (termed s) (calls s) (complaints s) in
      Some (if stderr then spawn_from (viewers - S i) (S i) exists_ pid s else s)
    end
  | ETerm => Some (termViewer s)
  | EShutdown => Some (set_ntf false s)
  end.
(** events one after another (image.py:89-108, 129-171) *)
Fixpoint v_exec (s : vst) (es : list vev) : option vst :=
  match es with [] => Some s | e :: es => match v_step s e with Some s => v_exec s es | None => None end end.
