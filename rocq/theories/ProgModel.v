(** * Model of the progress symbols: Reporter.progressChar (ade/report.py:352-370)
    on top of the message writer (MsgModel.v).

    The state is the one of the module-level messenger together with the
    reporter's _syms_on_line (0 at first, report.py:75).  A symbol is one
    character. *)
From Coq Require Import Bool Arith ZArith Ascii String List.
From Verif Require Import Flt Py MsgModel.
Import ListNotations.
Local Open Scope nat_scope.

(** ParameterManager.maxLineLength (ade/population.py:74) *)
Definition maxLineLength : nat := 120.

Section Prog.
Variable broken : handle -> nat -> bool.
Variable fmt : text -> list arg -> option text.

(** progressChar (report.py:362-370); [None]: called with no symbol *)
Definition progress_char (s : mst) (k : nat) (sym : option ascii) : mst * nat :=
  match sym with
  | None => (if Nat.ltb 0 k then fst (msg_call broken fmt s [AStr []]) else s, 0)
  | Some c =>
    let s := write_char broken s [c] in
    let k := S k in
    if Nat.ltb (maxLineLength - 1) k then (fst (msg_call broken fmt s [AStr []]), 0) else (s, k)
  end.

(** a history: calls of progressChar, and what else is written meanwhile (report.py:352-370) *)
Inductive pop : Type := PSym (c : ascii) | PReset | PMsg (op : mop).
(** one call (report.py:362-370, or a write as in MsgModel.v) *)
Definition p_step (sk : mst * nat) (op : pop) : mst * nat :=
  match op with
  | PSym c => progress_char (fst sk) (snd sk) (Some c)
  | PReset => progress_char (fst sk) (snd sk) None
  | PMsg op => (m_step broken fmt (fst sk) op, snd sk)
  end.
(** calls one after another (report.py:362-370) *)
Fixpoint p_exec (sk : mst * nat) (ops : list pop) : mst * nat :=
  match ops with [] => sk | op :: ops => p_exec (p_step sk op) ops end.
End Prog.
