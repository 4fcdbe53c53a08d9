(** * Model of the message writer: Messenger (ade/util.py:195-363).

    A handle is a number, [stdout] (sys.stdout) among them.  Arguments of a call
    are handles (anything with a write attribute), None, bools, ints, texts, or
    other objects, which only serve as values to be formatted: they are true,
    equal to none of the former, and have no length.  [fmt] is str.format, None
    if it raises (util.sub, ade/util.py:40-48, then raises ValueError).
    [broken h n]: the n-th operation (write or flush) on any handle fails, being
    on [h].  Writing to a closed handle fails, too.  Closing never raises. *)
From Coq Require Import Bool Arith ZArith Ascii String List.
From Verif Require Import Flt Py.
Import ListNotations.
Local Open Scope nat_scope.

(** what is written (util.py:237-239, 257) *)
Definition text := list ascii.
(** a writable object (util.py:263-270) *)
Definition handle := nat.
(** sys.stdout (util.py:267, 275) *)
Definition stdout : handle := 0.
(** the newline character (util.py:216-219, 237-239, 348) *)
Definition NL : ascii := ascii_of_nat 10.
(** an argument of __call__ (util.py:325-361) *)
Inductive arg : Type := AHandle (h : handle) | ANone | ABool (b : bool) | AInt (z : Z) | AStr (s : text) | AOther (n : nat).
(** fh, newlineNeeded, _lineWasWritten (util.py:207-210); what was written, in
    order; the handles closed; the number of operations *)
Record mst : Type := mkMst { mfh : option handle; need : bool; lwas : bool; out : list (handle * text); closed : list handle; ios : nat }.
(** __init__ (util.py:207-210) *)
Definition m_init : mst := mkMst None false false [] [] 0.
(** self.newlineNeeded = b (util.py:238, 259) *)
Definition set_need (s : mst) (b : bool) : mst := mkMst (mfh s) b (lwas s) (out s) (closed s) (ios s).

Section Msg.
Variable broken : handle -> nat -> bool.
Variable fmt : text -> list arg -> option text.

(** one operation on a handle (util.py:237-240, 257-258) *)
Definition io_ok (s : mst) (h : handle) : bool := negb (existsb (Nat.eqb h) (closed s)) && negb (broken h (ios s)).
(** write of a text, or flush (util.py:237-240, 257-258) *)
Definition io (s : mst) (h : handle) (t : option text) : mst * bool :=
  let ok := io_ok s h in
  (mkMst (mfh s) (need s) (lwas s) (match t with Some t => if ok then out s ++ [(h, t)] else out s | None => out s end) (closed s) (S (ios s)), ok).

(** fhSet (util.py:263-270): the new state and the value returned *)
Definition opt_eqb (a b : option handle) : bool :=
  match a, b with Some x, Some y => Nat.eqb x y | None, None => true | _, _ => false end.
(** fhSet (util.py:263-270) *)
Definition fh_set (s : mst) (new : option handle) : mst * option handle :=
  if opt_eqb new (mfh s) then (s, new) else
  (mkMst new (need s) (lwas s) (out s)
     (match mfh s with Some h => if Nat.eqb h stdout then closed s else closed s ++ [h] | None => closed s end) (ios s), mfh s).

(** writeLine (util.py:222-241); it sets an attribute _lineWritten that nothing reads *)
Definition write_line (s : mst) (line : text) : mst :=
  match mfh s with
  | None => s
  | Some h =>
    let (s1, ok1) := if need s then let (s1, ok) := io s h (Some [NL]) in ((if ok then set_need s1 false else s1), ok) else (s, true) in
    if ok1 then
      let (s2, ok2) := io s1 h (Some (line ++ [NL])) in
      if ok2 then let (s3, ok3) := io s2 h None in if ok3 then s3 else fst (fh_set s3 None)
      else fst (fh_set s2 None)
    else fst (fh_set s1 None)
  end.
(** writeChar (util.py:243-260) *)
Definition write_char (s : mst) (x : text) : mst :=
  match mfh s with
  | None => s
  | Some h =>
    let (s1, ok1) := io s h (Some x) in
    if ok1 then let (s2, ok2) := io s1 h None in if ok2 then set_need s2 true else fst (fh_set s2 None)
    else fst (fh_set s1 None)
  end.
(** _dashes (util.py:215-220) *)
Definition dashes (before after : bool) : text :=
  (if before then [NL] else []) ++ repeat "-"%char 120 ++ (if after then [NL] else []).
(** _fhSet (util.py:262-279) *)
Definition fhset_arg (s : mst) (a : arg) : mst * option handle :=
  match a with
  | AHandle h => fh_set s (Some h)
  | ABool b => fh_set s (if b then Some stdout else None)
  | AInt n => (write_line s (repeat NL (Z.to_nat n)), None)
  | _ => fh_set s None
  end.
(** lineWritten (util.py:281-290) *)
Definition line_written (s : mst) : mst * bool := (mkMst (mfh s) (need s) false (out s) (closed s) (ios s), lwas s).

(** the first argument is a handle or in (None, True, False), which 0 and 1 are (util.py:328-330) *)
Definition is_first (a : arg) : bool :=
  match a with AHandle _ | ANone | ABool _ => true | AInt z => Z.eqb z 0 || Z.eqb z 1 | _ => false end.
(** args[k] == '-' (util.py:338, 349, 355) *)
Definition is_dash (a : arg) : bool := match a with AStr s => if list_eq_dec ascii_dec s ["-"%char] then true else false | _ => false end.
(** isinstance(arg, int) and its value (util.py:276, 344-346) *)
Definition int_of (a : arg) : option Z := match a with ABool b => Some (if b then 1 else 0)%Z | AInt z => Some z | _ => None end.
(** not arg (util.py:335) *)
Definition falsy (a : arg) : bool :=
  match a with ANone | ABool false | AStr [] => true | AInt z => Z.eqb z 0 | _ => false end.
(** the loop for the prefix (util.py:343-352), n rounds *)
Fixpoint prefix_loop (n : nat) (args : list arg) (prefix : text) : res (text * list arg) :=
  match n with
  | O => Ok (prefix, args)
  | S n =>
    match args with
    | [] => Raise IndexError
    | a :: args' =>
      match int_of a with
      | Some z => prefix_loop n args' (prefix ++ (if Z.ltb 0 z then repeat " "%char (Z.to_nat z) else [NL]))
      | None => if is_dash a then prefix_loop n args' (prefix ++ dashes true true) else Ok (prefix, args)
      end
    end
  end.
(** number of matches of a brace pair, \{[^\{]*\} (util.py:353): a { counts if there
    is a } before the next { *)
Fixpoint braces_from (open : bool) (s : text) : nat :=
  match s with
  | [] => 0
  | c :: s => if Ascii.eqb c "{" then braces_from true s
              else if open && Ascii.eqb c "}" then S (braces_from false s) else braces_from open s
  end.
(** N_braces (util.py:353) *)
Definition braces : text -> nat := braces_from false.
(** the loop for the suffix (util.py:354-360): [rargs] are the arguments after the
    text, last first; [n] the number of brace pairs *)
Fixpoint suffix_loop (n : nat) (rargs : list arg) (suffix : text) : text * list arg :=
  match rargs with
  | [] => (suffix, [])
  | a :: r =>
    if n <? length rargs then
      if is_dash a then suffix_loop n r (suffix ++ dashes true false)
      else match int_of a with
           | Some z => if Z.eqb z (-1) || Z.eqb z 0 then suffix_loop n r (suffix ++ [NL]) else (suffix, rargs)
           | None => (suffix, rargs)
           end
    else (suffix, rargs)
  end.
(** __call__ (util.py:292-362) *)
Definition msg_call (s : mst) (args : list arg) : mst * res (option handle) :=
  let '(s, fh, args) :=
    match args with
    | a :: r => if is_first a then let (s, f) := fhset_arg s a in (s, f, r) else (s, mfh s, args)
    | [] => (s, mfh s, [])
    end in
  match args with
  | [] => (s, Ok fh)
  | [a] =>
    if falsy a then let s := write_char s [NL] in (s, Ok (mfh s))
    else match a with
         | AStr t =>
           let t := if is_dash a then dashes true false else t in
           let s := if length t =? 1 then write_char s t else write_line s t in (s, Ok (mfh s))
         | _ => (s, Raise TypeError)
         end
  | _ =>
    match prefix_loop 2 args [] with
    | Raise e => (s, Raise e)
    | Ok (prefix, args) =>
      match args with
      | [] => (s, Raise IndexError)
      | AStr p :: rest =>
        let (suffix, rr) := suffix_loop (braces p) (rev rest) [] in
        match fmt p (rev rr) with
        | None => (s, Raise ValueError)
        | Some t => (write_line s (prefix ++ t ++ suffix), Ok fh)
        end
      | _ => (s, Raise TypeError)
      end
    end
  end.
(** a history: calls of msg, writeLine, writeChar, lineWritten (util.py:222-260, 281-361) *)
Inductive mop : Type := MCall (args : list arg) | MLine (t : text) | MChar (t : text) | MWritten.
(** one of these (util.py:222-260, 281-361) *)
Definition m_step (s : mst) (op : mop) : mst :=
  match op with
  | MCall args => fst (msg_call s args)
  | MLine t => write_line s t
  | MChar t => write_char s t
  | MWritten => fst (line_written s)
  end.
(** a sequence of them (util.py:222-361) *)
Fixpoint m_exec (s : mst) (ops : list mop) : mst := match ops with [] => s | op :: ops => m_exec (m_step s op) ops end.
End Msg.
