(** * Pretty-printed values in lines: TextWrapper(width=maxLineLength,
    break_on_hyphens=False).fill (ade/population.py:76, 150) as in Python's textwrap
    module, and the text given to it by prettyValues (ade/population.py:130-150).

    LogModel.v leaves open how the parts of a text are put into lines.  Text is a
    list of ASCII characters as there.  The options of TextWrapper that the code
    leaves at their defaults are expand_tabs, replace_whitespace, drop_whitespace
    and break_long_words (all true), no indents, no max_lines, tabsize 8. *)
From Coq Require Import Bool Arith Ascii String List.
From Verif Require Import LogModel.
Import ListNotations.
Local Open Scope nat_scope.

(** textwrap's white space: the characters 9 to 13 and the space (population.py:76) *)
Definition is_ws (c : ascii) : bool := code_in 9 13 c || Ascii.eqb c " ".
(** a chunk for which chunk.strip() == '' (population.py:76) *)
Definition blank (s : text) : bool := forallb is_space s.
(** str.expandtabs(8) from column [j] on (population.py:76) *)
Fixpoint expandtabs (j : nat) (s : text) : text :=
  match s with
  | [] => []
  | c :: s =>
    if Nat.eqb (nat_of_ascii c) 9 then let n := 8 - j mod 8 in repeat " "%char n ++ expandtabs (j + n) s
    else if Nat.eqb (nat_of_ascii c) 10 || Nat.eqb (nat_of_ascii c) 13 then c :: expandtabs 0 s
    else c :: expandtabs (S j) s
  end.
(** _munge_whitespace (population.py:76) *)
Definition munge (s : text) : text := map (fun c => if is_ws c then " "%char else c) (expandtabs 0 s).
(** _split with break_on_hyphens=False: the runs of white space and of other
    characters (population.py:76) *)
Fixpoint runs (s : text) : list text :=
  match s with
  | [] => []
  | c :: s =>
    match runs s with
    | (d :: x) :: l => if Bool.eqb (is_ws c) (is_ws d) then (c :: d :: x) :: l else [c] :: (d :: x) :: l
    | l => [c] :: l
    end
  end.
(** the inner loop of _wrap_chunks: the chunks that fit into a line with [n]
    characters, and the others (population.py:76) *)
Fixpoint take_line (width n : nat) (chunks : list text) : list text * list text :=
  match chunks with
  | c :: cs => if n + length c <=? width then let (a, b) := take_line width (n + length c) cs in (c :: a, b) else ([], chunks)
  | [] => ([], [])
  end.
(** _handle_long_word: a next chunk longer than a line is cut where the line is full
    (population.py:76) *)
Definition long_word (width : nat) (cr : list text * list text) : list text * list text :=
  match cr with
  | (cur, c :: r) =>
    if width <? length c then
      let left := if width <? 1 then 1 else width - length (concat cur) in (cur ++ [firstn left c], skipn left c :: r)
    else cr
  | _ => cr
  end.
(** a blank chunk at the end of a line is dropped (population.py:76) *)
Definition drop_last (cur : list text) : list text :=
  match rev cur with c :: r => if blank c then rev r else cur | [] => [] end.
(** a blank chunk at the start of a line is dropped, except on the first
    (population.py:76) *)
Definition drop_first (first : bool) (chunks : list text) : list text :=
  match chunks with c :: r => if blank c && negb first then r else chunks | [] => [] end.
(** _wrap_chunks; [first]: there are no lines yet.  None: out of fuel (population.py:76) *)
Fixpoint wrap_chunks (fuel width : nat) (first : bool) (chunks : list text) : option (list text) :=
  match chunks with
  | [] => Some []
  | _ =>
    match fuel with
    | O => None
    | S fuel =>
      let (cur, rest) := long_word width (take_line width 0 (drop_first first chunks)) in
      match drop_last cur with
      | [] => wrap_chunks fuel width first rest
      | cur => match wrap_chunks fuel width false rest with Some ls => Some (concat cur :: ls) | None => None end
      end
    end
  end.
(** wrap: the lines that fill joins with line breaks, for a width above zero
    (population.py:76, 150) *)
Definition wrap (width : nat) (s : text) : option (list text) :=
  let s := munge s in wrap_chunks (S (length s)) width true (runs s).
(** maxLineLength (population.py:74) *)
Definition maxLineLength : nat := 120.
(** the lines of prettyValues (population.py:130-150) *)
Definition pretty_lines (prelude : text) (vals : list found) : option (list text) :=
  wrap maxLineLength (join (txt " ") (pretty_parts prelude vals)).
