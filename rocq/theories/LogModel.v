(** * Model of reading a log file: Grepper.filerator and its regular expressions
    (ade/scripts/lgg.py:207-210, 225-294), and of the lines the package writes
    into a log: ParameterManager.prettyValues (ade/population.py:130-150),
    Individual.__repr__ (ade/individual.py:94-100), the debug message of
    Reporter.newBest (ade/report.py:251), the population table
    (ade/population.py:626-660).

    Text is a list of ASCII characters.  The regular expression reParam contains
    \E inside a character class; it stands for E here (Python before 3.6;
    later versions refuse to compile it).  [tofloat] is Python's float() of a
    text, None if it raises ValueError. *)
From Coq Require Import Bool Arith Ascii String List.
From Verif Require Import Flt Py.
Import ListNotations.
Local Open Scope nat_scope.

(** a line of the file (lgg.py:235, 264) *)
Definition text := list ascii.
(** a literal text (lgg.py:271, 275) *)
Definition txt (s : string) : text := list_ascii_of_string s.

(** ** characters *)
(** ranges of characters in regular expressions (lgg.py:207-210) *)
Definition code_in (a b : nat) (c : ascii) : bool := (a <=? nat_of_ascii c) && (nat_of_ascii c <=? b).
(** \s, str.strip, str.split (lgg.py:209, 251, 269) *)
Definition is_space (c : ascii) : bool := code_in 9 13 c || code_in 28 32 c.
(** [0-9], \d (lgg.py:207-210) *)
Definition is_dig (c : ascii) : bool := code_in 48 57 c.
(** [a-zA-Z] (lgg.py:209) *)
Definition is_letter (c : ascii) : bool := code_in 65 90 c || code_in 97 122 c.
(** [_a-zA-Z0-9] (lgg.py:209) *)
Definition is_wordc (c : ascii) : bool := is_letter c || is_dig c || Ascii.eqb c "_".
(** [\d\.eE\-\+], also [0-9\.e\E\-\+] (lgg.py:207, 210) *)
Definition is_num (c : ascii) : bool :=
  is_dig c || Ascii.eqb c "." || Ascii.eqb c "e" || Ascii.eqb c "E" || Ascii.eqb c "-" || Ascii.eqb c "+".
(** [\+\-] (lgg.py:210) *)
Definition is_sign (c : ascii) : bool := Ascii.eqb c "-" || Ascii.eqb c "+".
(** \* (lgg.py:210) *)
Definition is_star (c : ascii) : bool := Ascii.eqb c "*".

(** longest prefix of characters satisfying p, and the rest
    (greedy repetition, lgg.py:207-210) *)
Fixpoint span (p : ascii -> bool) (s : text) : text * text :=
  match s with
  | [] => ([], [])
  | c :: s' => if p c then let (a, b) := span p s' in (c :: a, b) else ([], s)
  end.
(** a literal text in a regular expression (lgg.py:207, 209) *)
Fixpoint strip_prefix (p s : text) : option text :=
  match p, s with
  | [], _ => Some s
  | a :: p, b :: s => if Ascii.eqb a b then strip_prefix p s else None
  | _ :: _, [] => None
  end.
(** str.startswith (lgg.py:271, 275, 279) *)
Definition starts_with (p s : text) : bool := match strip_prefix p s with Some _ => true | None => false end.
(** str.lstrip, for strip (lgg.py:251, 269) *)
Fixpoint lstrip (s : text) : text := match s with c :: s' => if is_space c then lstrip s' else s | [] => [] end.
(** str.strip (lgg.py:251, 269, 282) *)
Definition strip (s : text) : text := rev (lstrip (rev (lstrip s))).
(** s.split(): the words (lgg.py:277, 283) *)
Fixpoint words_from (cur : text) (s : text) : list text :=
  match s with
  | [] => match cur with [] => [] | _ => [rev cur] end
  | c :: s => if is_space c then match cur with [] => words_from [] s | _ => rev cur :: words_from [] s end
              else words_from (c :: cur) s
  end.
(** str.split() (lgg.py:277, 283) *)
Definition words (s : text) : list text := words_from [] s.
(** s.split('|') (lgg.py:277, 282) *)
Fixpoint split_bar (s : text) : list text :=
  match s with
  | [] => [[]]
  | c :: s => if Ascii.eqb c "|" then [] :: split_bar s
              else match split_bar s with x :: l => (c :: x) :: l | [] => [[c]] end
  end.

(** ** regular expressions *)
(** reSSE.search (lgg.py:207): SSE\=([\d\.eE\-\+]+); the group and the text after
    the match.  The class is greedy and nothing follows it *)
Fixpoint sse_search (s : text) : option (text * text) :=
  match s with
  | [] => None
  | _ :: s' =>
    match strip_prefix (txt "SSE=") s with
    | Some r => match span is_num r with ([], _) => sse_search s' | (n, rest) => Some (n, rest) end
    | None => sse_search s'
    end
  end.
(** reParam (lgg.py:208-210) after its first group: ([a-zA-Z]+[_a-zA-Z0-9]* )\=
    ([\+\-]?[0-9][0-9\.eE\-\+]* )(\** )(\s|\>|$).  None of the greedy parts can
    give back a character and still match, since the character after each part
    is outside the class before it.  Result: groups 2, 3, 4 and the rest.  The
    code writes \E for E in the number's class; python before 3.6 reads that as
    E, later versions refuse to compile the expression *)
Definition pmatch : Type := text * text * text * text.
(** the groups 2 to 5 at the start of a text (lgg.py:209-210) *)
Definition param_at (s : text) : option pmatch :=
  match s with
  | c :: _ =>
    if is_letter c then
      let (name, r) := span is_wordc s in
      match r with
      | e :: r =>
        if Ascii.eqb e "=" then
          let (sg, r) := match r with c :: r' => if is_sign c then ([c], r') else ([], r) | [] => ([], []) end in
          match r with
          | d :: _ =>
            if is_dig d then
              let (n, r) := span is_num r in
              let (st, r) := span is_star r in
              match r with
              | [] => Some (name, sg ++ n, st, [])
              | c :: r => if is_space c || Ascii.eqb c ">" then Some (name, sg ++ n, st, r) else None
              end
            else None
          | [] => None
          end
        else None
      | [] => None
      end
    else None
  | [] => None
  end.
(** the first group (^|\s): at the start of the text, or after a white space (lgg.py:209) *)
Fixpoint after_space (s : text) : option pmatch :=
  match s with
  | [] => None
  | c :: s => if is_space c then match param_at s with Some m => Some m | None => after_space s end else after_space s
  end.
(** reParam.search (lgg.py:244, 289) *)
Definition param_search (s : text) : option pmatch :=
  match param_at s with Some m => Some m | None => after_space s end.

(** the parameters found in a line (lgg.py:245-262, 288-293): search, cut off
    the match, search again; None when the fuel is used up *)
Definition found : Type := text * (text * text).
(** the loop (lgg.py:243-258, 288-293) *)
Fixpoint scan (fuel : nat) (line : text) : option (list found) :=
  match fuel with
  | O => None
  | S fuel =>
    match param_search line with
    | None => Some []
    | Some (name, v, st, rest) =>
      match scan fuel rest with Some l => Some ((name, (v, st)) :: l) | None => None end
    end
  end.
(** enough fuel for a line (lgg.py:288-293) *)
Definition scan_line (line : text) : option (list found) := scan (S (length line)) line.

(** ** the dict pd *)
(** lgg.py:257, 283 *)
Definition text_eqb (a b : text) : bool := if list_eq_dec ascii_dec a b then true else false.
(** a dict with texts as keys, in order of insertion (lgg.py:241, 261, 285) *)
Definition tdict (A : Type) := list (text * A).
(** d[k] = v (lgg.py:257, 283) *)
Fixpoint tset {A} (d : tdict A) (k : text) (v : A) : tdict A :=
  match d with
  | [] => [(k, v)]
  | (k', v') :: d => if text_eqb k' k then (k', v) :: d else (k', v') :: tset d k v
  end.
(** several such assignments (lgg.py:257, 292) *)
Definition tset_all {A} (d : tdict A) (l : list (text * A)) : tdict A := fold_left (fun d x => tset d (fst x) (snd x)) l d.
(** d[k] (lgg.py:286) *)
Fixpoint tget {A} (d : tdict A) (k : text) : option A :=
  match d with [] => None | (k', v) :: d => if text_eqb k' k then Some v else tget d k end.

(** ** filerator *)
(** how the generator ends (lgg.py:225-294) *)
Inductive fin : Set := Finished | Failed (e : exn) | OutOfFuel.
Section File.
Context {F : Type}.
Variable tofloat : text -> option F.
(** what is yielded: SSE and pd (lgg.py:254, 294) *)
Definition lentry : Type := F * tdict (text * text).
(** one more yield (lgg.py:254, 294) *)
Definition yield1 (e : lentry) (x : list lentry * fin) : list lentry * fin := (e :: fst x, snd x).

(** the first part (lgg.py:231-262).  The nested loops reading lines are one pass
    over the lines with the entry being read, if any; reading past the end
    gives the empty string, which ends the entry *)
Fixpoint phase1 (cur : option lentry) (lines : list text) : list lentry * fin :=
  match lines with
  | [] => (match cur with Some e => [e] | None => [] end, Finished)
  | l :: lines =>
    match cur with
    | None =>
      match sse_search l with
      | None => phase1 None lines
      | Some (n, rest) =>
        match tofloat n, scan_line rest with
        | Some x, Some ps => phase1 (Some (x, tset_all [] ps)) lines
        | None, _ => ([], Failed ValueError)
        | Some _, None => ([], OutOfFuel)
        end
      end
    | Some (x, pd) =>
      match strip l with
      | [] => yield1 (x, pd) (phase1 None lines)
      | l =>
        match scan_line l with
        | Some ps => phase1 (Some (x, tset_all pd ps)) lines
        | None => ([], OutOfFuel)
        end
      end
    end
  end.

(** the final population table (lgg.py:263-283): the SSEs and the columns of
    each parameter *)
Fixpoint table2 (params : tdict (list text)) (lines : list text) : res (tdict (list text)) :=
  match lines with
  | [] => Ok params
  | l :: lines =>
    let l := strip l in
    if starts_with (txt "--") l then match params with [] => table2 params lines | _ => Ok params end
    else match split_bar l with
         | [n; v] => table2 (tset params (strip n) (words (strip v))) lines
         | _ => Raise ValueError
         end
  end.
(** stage 2: the rows (lgg.py:279-283) *)
Fixpoint table1 (lines : list text) : res (list text * tdict (list text)) :=
  match lines with
  | [] => Ok ([], [])
  | l :: lines =>
    let l := strip l in
    if starts_with (txt "SSE") l then
      match split_bar l with
      | _ :: v :: _ => bind (table2 [] lines) (fun ps => Ok (words v, ps))
      | _ => Raise IndexError
      end
    else table1 lines
  end.
(** stages 0 and 1 (lgg.py:270-278) *)
Fixpoint table0 (lines : list text) : res (list text * tdict (list text)) :=
  match lines with
  | [] => Ok ([], [])
  | l :: lines => if starts_with (txt "Final population") (strip l) then table1 lines else table0 lines
  end.
(** a loop whose body may raise (lgg.py:282-286) *)
Fixpoint mapM {A B} (f : A -> res B) (l : list A) : res (list B) :=
  match l with [] => Ok [] | x :: l => bind (f x) (fun y => bind (mapM f l) (fun r => Ok (y :: r))) end.
(** sep.join(l) (lgg.py:287) *)
Fixpoint join (sep : text) (l : list text) : text :=
  match l with [] => [] | [x] => x | x :: l => x ++ sep ++ join sep l end.
(** an entry per column (lgg.py:284-294) *)
Definition column_line (params : tdict (list text)) (k : nat) : res text :=
  bind (mapM (fun p => match nth_error (snd p) k with Some v => Ok (fst p ++ txt "=" ++ v) | None => Raise IndexError end) params)
       (fun parts => Ok (join (txt " ") parts)).
(** the loop over SSEs (lgg.py:284-294) *)
Fixpoint columns (params : tdict (list text)) (k : nat) (SSEs : list text) : list lentry * fin :=
  match SSEs with
  | [] => ([], Finished)
  | s :: SSEs =>
    match column_line params k with
    | Raise e => ([], Failed e)
    | Ok line =>
      match scan_line line with
      | None => ([], OutOfFuel)
      | Some ps =>
        match tofloat s with
        | None => ([], Failed ValueError)
        | Some x => yield1 (x, tset_all [] ps) (columns params (S k) SSEs)
        end
      end
    end
  end.
(** filerator (lgg.py:225-294) on the lines of the file *)
Definition filerator (lines : list text) : list lentry * fin :=
  match phase1 None lines with
  | (es, Finished) =>
    match table0 lines with
    | Raise e => (es, Failed e)
    | Ok (SSEs, params) => let (es', f) := columns params 0 SSEs in (es ++ es', f)
    end
  | r => r
  end.
End File.

(** ** what the package logs *)
(** prettyValues (population.py:130-150) before fill: the prelude, then name=value
    with stars for every parameter; [vals] are the formatted values and stars in
    the order of the sorted names (stringValue is modelled in ParamModel.v) *)
Definition pretty_parts (prelude : text) (vals : list found) : list text :=
  prelude :: map (fun p => fst p ++ txt "=" ++ fst (snd p) ++ snd (snd p)) vals.
(** TextWrapper.fill, for parts no longer than a line: the parts in order, some
    of the spaces between them turned into line breaks; here the parts of each
    line are given (population.py:150) *)
Definition fill_lines (groups : list (list text)) : list text := map (join (txt " ")) groups.
(** Individual.__repr__ (individual.py:94-100) of wrapped lines: < in front of
    the first, > behind the last *)
Definition repr_lines (lines : list text) : list text :=
  match lines with
  | [] => [txt "<>"]
  | l :: ls => match rev ls with
               | [] => [txt "<" ++ l ++ txt ">"]
               | z :: m => (txt "<" ++ l) :: rev m ++ [z ++ txt ">"]
               end
  end.
(** the debug message of newBest (report.py:251) *)
Definition debug_lines (a b : list text) : list text := repr_lines a ++ [ascii_of_nat 9 :: txt "--->"] ++ repr_lines b ++ [[]].
(** the population table (population.py:626-660): [title] is its first line, the
    SSEs and values are already formatted, the stars apart; maxLineLength dashes
    (population.py:74-75) *)
Definition padl (n : nat) (s : text) : text := repeat " "%char (n - length s) ++ s.
(** padding on the right, "{:2s}" (population.py:127) *)
Definition padr (n : nat) (s : text) : text := s ++ repeat " "%char (n - length s).
(** addRow (population.py:631-635) *)
Definition table_row (name : text) (cells : list text) : text :=
  join (txt " ") (padl 11 name :: txt "|" :: cells).
(** pm.dashes (population.py:74-75, 649, 658) *)
Definition dashes : text := repeat "-"%char 120.
(** the whole table (population.py:626-660) *)
Definition pop_lines (title : text) (SSEs : list text) (rows : list (text * list (text * text))) (best : list text) : list text :=
  [title; []; table_row (txt "SSE") (map (fun s => padl 10 s ++ txt "  ") SSEs); dashes] ++
  map (fun r => table_row (fst r) (map (fun c => padl 10 (fst c) ++ padr 2 (snd c)) (snd r))) rows ++
  [dashes; txt "Best individual:"] ++ best ++ [[]].
