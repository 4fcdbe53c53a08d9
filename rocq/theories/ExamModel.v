(** * Model of the example programs: the command protocol of goldstein-price.py,
    the evaluators of thermistor.py and voc.py (ade/examples). *)
From Coq Require Import Bool Arith ZArith Ascii String List.
From Verif Require Import Flt Py ParamModel.
Import ListNotations.
Local Open Scope nat_scope.

(** ** ExecProtocol (examples/goldstein-price.py:58-116) *)
(** Commands are numbers.  The executable answers the lines it gets one after the
    other (goldstein-price.c), each answer arriving by itself; the answer to
    command c is represented by c.  [ewait]: the Deferreds waiting for the
    DeferredLock, first come first served, each with whether it is the command's
    second one.  [eresp]: self.response.  [eres]: commands done, each with the
    command whose answer it got.  [erun]: self.running; [ekilled]: the process
    was sent KILL. (goldstein-price.py:64-116) *)
Record ep : Type := mkEp { elocked : bool; ewait : list (nat * bool); epend : list nat; eresp : option nat;
  eres : list (nat * nat); erun : option bool; ekilled : bool }.
(** __init__ (goldstein-price.py:64-68): the lock is acquired *)
Definition ep_init : ep := mkEp true [] [] None [] None false.
(** DeferredLock.release (Twisted): the next one waiting gets the lock and goes on
    at once.  Gives: locked, waiting, commands written, commands done.
    cmd (goldstein-price.py:91-102): with the first Deferred it writes and waits
    again, with the second it releases and is done *)
Fixpoint ep_release (w : list (nat * bool)) : bool * list (nat * bool) * list nat * list nat :=
  match w with
  | [] => (false, [], [], [])
  | (c, false) :: w' => (true, w' ++ [(c, true)], [c], [])
  | (c, true) :: w' => let '(l, w2, wr, fin) := ep_release w' in (l, w2, wr, fin ++ [c])
  end.
(** self.lock.release() (goldstein-price.py:81, 89, 101, 116) *)
Definition do_release (s : ep) : ep :=
  let '(l, w, wr, fin) := ep_release (ewait s) in
  mkEp l w (epend s ++ wr) (eresp s)
    (eres s ++ match eresp s with Some d => map (fun c => (c, d)) fin | None => [] end) (erun s) (ekilled s).
(** what can happen: the process starts, a command, an answer, shutdown (goldstein-price.py:70-116) *)
Inductive eev : Type := EConnected | ECmd (c : nat) | EReply | EShutdown.
(** shutdown, connectionMade, cmd and outReceived (goldstein-price.py:70-116) *)
Definition ep_step (s : ep) (e : eev) : ep :=
  match e with
  | EConnected => if elocked s then do_release s else s    (* goldstein-price.py:83-89 *)
  | ECmd c =>                                              (* goldstein-price.py:98-99 *)
    if elocked s then mkEp true (ewait s ++ [(c, false)]) (epend s) (eresp s) (eres s) (erun s) (ekilled s)
    else mkEp true (ewait s ++ [(c, true)]) (epend s ++ [c]) (eresp s) (eres s) (erun s) (ekilled s)
  | EReply =>                                              (* outReceived, goldstein-price.py:104-116 *)
    match epend s with
    | [] => s
    | d :: pend => if elocked s then do_release (mkEp true (ewait s) pend (Some d) (eres s) (erun s) (ekilled s))
                   else mkEp false (ewait s) pend (eresp s) (eres s) (erun s) (ekilled s)
    end
  | EShutdown =>                                           (* goldstein-price.py:70-81 *)
    match erun s with
    | Some true =>
      let s' := mkEp (elocked s) (ewait s) (epend s) None (eres s) (Some false) true in
      if elocked s then do_release s' else s'
    | _ => s
    end
  end.
(** any sequence of these (goldstein-price.py:70-116) *)
Definition ep_run (s : ep) (evs : list eev) : ep := fold_left ep_step evs s.

(** MultiRunner.__call__ (goldstein-price.py:181-191): the runner taken from the
    queue is put back as soon as it was called *)
Fixpoint assign (queue : list nat) (calls : nat) : list nat :=
  match calls with
  | O => []
  | S n => match queue with [] => [] | r :: q => r :: assign (q ++ [r]) n end
  end.

(** ** thermistor.py *)
(** a character of a string (thermistor.py:232-233) *)
Definition chr (c : ascii) : string := String c EmptyString.
(** prefixes and the keys of prefix_bounds (thermistor.py:174-188) *)
Definition th_prefixes : list string := ["A"; "B"; "C"; "D"]%string.
(** the sorted keys of prefix_bounds (thermistor.py:175-188, 204) *)
Definition th_keys : list string := ["A"; "B"; "C"; "D"; "a"; "b"; "c"; "d"]%string.
(** the lower case prefixes (thermistor.py:209, 233) *)
Definition th_lower : list string := ["a"; "b"; "c"; "d"]%string.
(** sub("{}{:d}", prefix, k) for a one-digit k (thermistor.py:219-224) *)
Definition prefix2name (prefix : string) (k : nat) : string := (prefix ++ chr (ascii_of_nat (48 + k)))%string.
(** membership (thermistor.py:207, 209) *)
Definition isin (x : string) (l : list string) : bool := existsb (String.eqb x) l.
(** the names (thermistor.py:203-214) *)
Definition th_names : list string :=
  flat_map (fun k => flat_map (fun prefix =>
    if Nat.eqb k 0 && isin prefix th_prefixes then [prefix]
    else if Nat.ltb 0 k && isin prefix th_lower then [prefix2name prefix k] else []) (ssort th_keys)) (seq 0 7).
(** the dict indices: name -> position, KeyError if missing (thermistor.py:213, 235) *)
Definition th_index (names : list string) (x : string) : res nat :=
  match index_of (String.eqb x) names with Some k => Ok k | None => Raise KeyError end.
(** the list comprehension, which may raise (thermistor.py:235) *)
Fixpoint collect {A} (l : list (res A)) : res (list A) :=
  match l with [] => Ok [] | x :: r => bind x (fun a => bind (collect r) (fun r => Ok (a :: r))) end.
(** values[k] (thermistor.py:235) *)
Definition item {V} (values : list V) (k : nat) : res V :=
  match nth_error values k with Some v => Ok v | None => Raise IndexError end.
(** values2args (thermistor.py:226-235) *)
Definition values2args {V} (values : list V) (k : nat) : res (list V) :=
  collect (map (fun x => bind (th_index th_names x) (item values)) (th_prefixes ++ map (fun p => prefix2name p k) th_lower)).
(** the indices for the drift of a prefix (thermistor.py:278-279) *)
Definition drift_indices (prefix : string) : list nat :=
  flat_map (fun kx => if String.prefix prefix (snd kx) then [fst kx] else []) (combine (seq 0 (length th_names)) th_names).

(** __call__ (thermistor.py:256-287).  [parts]: the weighted sums of squared
    residuals of the thermistors; [drifts]: the fourth powers of the drifts; both
    computed by numpy.  xSSE counts if not None and not zero.  The first loop
    returns at once, the second breaks, which comes to the same. *)
Definition exceeds (xSSE : option f64) (sse : f64) : bool :=
  match xSSE with None => false | Some x => negb (feqb x fzero) && fltb x sse end.
(** driftPenalty (thermistor.py:173) *)
Definition penalty : f64 := fdiv (fofZ 1) (fofZ 10).
(** the first loop, and whether it returned (thermistor.py:266-273) *)
Fixpoint th_sum (xSSE : option f64) (sse : f64) (parts : list f64) : f64 * bool :=
  match parts with
  | [] => (sse, false)
  | p :: r => let sse := fadd sse p in if exceeds xSSE sse then (sse, true) else th_sum xSSE sse r
  end.
(** the second loop (thermistor.py:276-285) *)
Fixpoint th_drift (xSSE : option f64) (sse : f64) (drifts : list f64) : f64 :=
  match drifts with
  | [] => sse
  | d :: r => let sse := fmul sse (fadd fone (fmul penalty d)) in if exceeds xSSE sse then sse else th_drift xSSE sse r
  end.
(** __call__ (thermistor.py:256-287) *)
Definition th_eval (xSSE : option f64) (parts drifts : list f64) : f64 :=
  let (sse, stop) := th_sum xSSE fzero parts in if stop then sse else th_drift xSSE sse drifts.

(** ** voc.py *)
(** the keys of bounds (voc.py:158-173), and the names (voc.py:189) *)
Definition voc_keys : list string := ["a1"; "b1"; "c1"; "a2"; "b2"; "c2"; "a3"; "b3"; "c3"; "voc"]%string.
(** sorted(bounds.keys()) (voc.py:189) *)
Definition voc_names : list string := ssort voc_keys.
(** curve (voc.py:196-211) at one time t; [exp] is np.exp *)
Definition voc_term (exp : f64 -> f64) (t a b c : f64) : f64 := fmul a (exp (fdiv (fopp (fadd t c)) b)).
(** curve (voc.py:196-211) *)
Definition voc_curve (exp : f64 -> f64) (t : f64) (args : list f64) : res f64 :=
  match args with
  | [a0; b0; c0; a1; b1; c1; a2; b2; c2; v] =>
    Ok (fadd (fadd (fadd v (voc_term exp t a0 b0 c0)) (voc_term exp t a1 b1 c1)) (voc_term exp t a2 b2 c2))
  | _ => Raise ValueError   (* for other numbers of parameters: not modelled *)
  end.
