(** * Model of ade/scripts/lgg.py: the log table *)
From Coq Require Import ZArith String Ascii List Bool Arith DecimalString.
From Verif Require Import Flt Py ParamModel.
Import ListNotations.

(** ** RowManager.trim *)
(** diffEnough (lgg.py:177-180): the operands are numpy floats, so dividing does
    not raise.  [abs(a)] and the quotient are binary64 *)
Definition diffEnough (maxDiff a b : f64) : bool :=
  if feqb b fzero then fltb maxDiff (fabs a) else fltb maxDiff (fdiv (fabs (fsub a b)) b).

(** one log entry as kept in the arrays SSE, values, stars (lgg.py:104-106, 115-139) *)
Record row : Set := { rSSE : f64; rvals : list f64; rstars : list nat }.

(** the for/else over the values (lgg.py:189-192): whether some value differs
    from the value at the same place in the last entry kept *)
Fixpoint any_diff (maxDiff : f64) (u v : list f64) : bool :=
  match u, v with
  | a :: u, b :: v => diffEnough maxDiff a b || any_diff maxDiff u v
  | _, _ => false
  end.
(** lgg.py:188-192 *)
Definition differs (maxDiff : f64) (r last : row) : bool :=
  diffEnough maxDiff (rSSE r) (rSSE last) || any_diff maxDiff (rvals r) (rvals last).

Section Trim.
Variable t : nat -> row.
Variables lim maxDiff : f64.
(** the loop over K[1:] (lgg.py:185-193); [last] is KS[-1] *)
Fixpoint trim_scan (last : nat) (K : list nat) : list nat :=
  match K with
  | [] => []
  | k :: K =>
    if fltb lim (rSSE (t k)) then []
    else if differs maxDiff (t k) (t last) then k :: trim_scan k K
    else trim_scan last K
  end.
End Trim.
(** KS[-n:]: everything if n is 0 (lgg.py:194) *)
Definition lastn {A} (n : nat) (l : list A) : list A :=
  match n with O => l | _ => skipn (length l - n) l end.
(** never reached: entry outside the arrays (lgg.py:185-190) *)
Definition row0 : row := {| rSSE := fnan; rvals := []; rstars := [] |}.
(** np.min for arrays without NaN (lgg.py:183) *)
Definition fmin2 (a b : f64) : f64 := if fltb b a then b else a.
(** np.min(self.SSE) (lgg.py:183) *)
Definition np_min (l : list f64) : f64 := match l with [] => fnan | x :: l => fold_left fmin2 l x end.
(** trim (lgg.py:156-197): the indices KS of the entries kept, in their new
    order.  An empty table makes np.min raise ValueError *)
Definition trim_ks (argsort : list f64 -> list nat) (rows : list row) (maxRatio maxDiff : f64) (maxRows : nat) : res (list nat) :=
  match rows with
  | [] => Raise ValueError
  | _ =>
    match argsort (map rSSE rows) with
    | [] => Raise IndexError
    | k0 :: K =>
      let t := fun k => nth k rows row0 in
      let lim := fmul maxRatio (np_min (map rSSE rows)) in
      Ok (rev (lastn maxRows (k0 :: trim_scan t lim maxDiff k0 K)))
    end
  end.
(** trim (lgg.py:156-197) *)
Definition trim (argsort : list f64 -> list nat) (rows : list row) (maxRatio maxDiff : f64) (maxRows : nat) : res (list row) :=
  bind (trim_ks argsort rows maxRatio maxDiff maxRows) (fun KS => Ok (map (fun k => nth k rows row0) KS)).
(** the defaults of trim (lgg.py:156): 2.0, 0.01, 40 *)
Definition def_ratio : f64 := fofZ 2.
(** maxDiff=0.01 (lgg.py:156) *)
Definition def_diff : f64 := flit 5764607523034235 (-59).
(** maxRows=40 (lgg.py:156) *)
Definition def_rows : nat := 40.

(** ** RowManager.setupNames *)
(** [0-9] (lgg.py:66) *)
Definition is_digit (c : ascii) : bool := (48 <=? nat_of_ascii c)%nat && (nat_of_ascii c <=? 57)%nat.
(** [a-z] (lgg.py:67) *)
Definition is_lowercase (c : ascii) : bool := (97 <=? nat_of_ascii c)%nat && (nat_of_ascii c <=? 122)%nat.
(** [A-Z] (lgg.py:66-67) *)
Definition is_uppercase (c : ascii) : bool := (65 <=? nat_of_ascii c)%nat && (nat_of_ascii c <=? 90)%nat.
(** [a-zA-Z0-9_] (lgg.py:66-67) *)
Definition is_word (c : ascii) : bool := is_digit c || is_lowercase c || is_uppercase c || Ascii.eqb c "_".

Local Open Scope string_scope.
(** the longest prefix of digits, and the rest: [0-9]+ is greedy, and giving
    back a digit never helps since what follows must be no digit (lgg.py:66) *)
Fixpoint span_digits (s : string) : string * string :=
  match s with
  | EmptyString => ("", "")
  | String c s' => if is_digit c then let '(d, r) := span_digits s' in (String c d, r) else ("", s)
  end.
(** ([0-9]+)\-([0-9]+)$ at the start of the string; names have no newline (lgg.py:66) *)
Definition num_tail (s : string) : option (string * string) :=
  match span_digits s with
  | (String c d, String h s2) =>
    if Ascii.eqb h "-" then
      match span_digits s2 with
      | (String c2 d2, EmptyString) => Some (String c d, String c2 d2)
      | _ => None
      end
    else None
  | _ => None
  end.
(** ([a-z])\-([a-z])$ (lgg.py:67) *)
Definition letter_tail (s : string) : option (ascii * ascii) :=
  match s with
  | String a (String h (String b EmptyString)) =>
    if is_lowercase a && Ascii.eqb h "-" && is_lowercase b then Some (a, b) else None
  | _ => None
  end.
(** ([a-zA-Z0-9_]+?) followed by the tail (lgg.py:66-67): the shortest non-empty
    prefix of word characters after which the tail matches.  [pre] is the
    prefix so far *)
Fixpoint range_match {B} (tail : string -> option B) (pre s : string) : option (string * B) :=
  match s with
  | EmptyString => None
  | String c s' =>
    if is_word c then
      let pre' := pre ++ String c "" in
      match tail s' with Some b => Some (pre', b) | None => range_match tail pre' s' end
    else None
  end.
(** int(s) of a string of decimal digits, and str(n) (lgg.py:79, 84) *)
Definition py_int (s : string) : nat := match NilZero.uint_of_string s with Some u => Nat.of_uint u | None => 0 end.
(** str(x) (lgg.py:79) *)
Definition py_str (n : nat) : string := NilZero.string_of_uint (Nat.to_uint n).
(** numRange (lgg.py:83-84) *)
Definition numRange (d1 d2 : string) : list string :=
  let a := py_int d1 in let b := py_int d2 in map py_str (seq a (S b - a)).
(** letterRange (lgg.py:86-88): a slice of the alphabet; each character is then
    the suffix *)
Definition letterRange (c1 c2 : ascii) : list string :=
  let a := nat_of_ascii c1 in let b := nat_of_ascii c2 in
  map (fun n => String (ascii_of_nat n) "") (seq a (S b - a)).
(** addRange twice, else the name itself (lgg.py:73-80, 92-96) *)
Definition expand (name : string) : list string :=
  match range_match num_tail "" name with
  | Some (p, (d1, d2)) => map (append p) (numRange d1 d2)
  | None =>
    match range_match letter_tail "" name with
    | Some (p, (c1, c2)) => map (append p) (letterRange c1 c2)
    | None => [name]
    end
  end.
(** self.names after setupNames (lgg.py:82-97); the regular expressions compiled
    per name (self.rp) are only used by addMatches, which nothing calls *)
Definition setupNames (names : list string) : list string := flat_map expand names.

(** ** Grepper *)
(** what filerator yields for an entry: SSE and a dict of the parameters with
    the value as a string (here: the float it denotes) and the stars (here:
    their number).  Reading the file (lgg.py:225-294) is not modelled *)
Definition pdict := list (string * (f64 * nat)).
(** a pair as yielded (lgg.py:254, 294) *)
Definition entry : Set := f64 * pdict.
(** pd[name] (lgg.py:313, 333) *)
Fixpoint pd_get (pd : pdict) (n : string) : option (f64 * nat) :=
  match pd with [] => None | (k, v) :: pd => if String.eqb k n then Some v else pd_get pd n end.

(** globNames (lgg.py:317-323): None if there is no entry.  [glob] is
    fnmatch.fnmatchcase; [sorted_names] is the list of the keys sorted *)
Definition globNames (glob : string -> string -> bool) (es : list entry) (pattern : string) : option (list string) :=
  match es with
  | [] => None
  | (_, pd) :: _ => Some (filter (fun n => glob n pattern) (ssort (map fst pd)))
  end.
(** name in names (lgg.py:220, 313) *)
Definition smem (n : string) (l : list string) : bool := existsb (String.eqb n) l.
(** the loop over a dict's names in starredNames (lgg.py:312-314) *)
Definition add_starred (names : list string) (pd : pdict) : list string :=
  fold_left (fun names x => if (0 <? snd (snd x))%nat && negb (smem (fst x) names) then names ++ [fst x] else names)%list pd names.
(** the dict [best], keyed by SSE: assignment replaces the value of an equal key
    in place, else appends (lgg.py:305, 310) *)
Fixpoint best_set (best : list entry) (s : f64) (pd : pdict) : list entry :=
  match best with
  | [] => [(s, pd)]
  | (k, v) :: best => if feqb k s then (k, pd) :: best else (k, v) :: best_set best s pd
  end.
(** sorted(best.keys())[-1]; keys are not NaN (lgg.py:307-308) *)
Definition best_max (best : list entry) : f64 :=
  match best with [] => fnan | (k, _) :: b => fold_left (fun m x => if fltb m (fst x) then fst x else m) b k end.
(** del best[SSEs[-1]] (lgg.py:309) *)
Definition best_del (best : list entry) (s : f64) : list entry := filter (fun x => negb (feqb (fst x) s)) best.
(** the loop body (lgg.py:304-310) *)
Definition star_step (N : nat) (best : list entry) (e : entry) : list entry :=
  let '(s, pd) := e in
  if (length best <? N)%nat then best_set best s pd
  else if fltb s (best_max best) then best_set (best_del best (best_max best)) s pd else best.
(** starredNames (lgg.py:296-315); N is 4 in the code *)
Definition starredNames (N : nat) (es : list entry) : list string :=
  let best := fold_left (star_step N) es [] in
  ssort (fold_left (fun names e => add_starred names (snd e)) best []).

(** Grepper.__init__ (lgg.py:212-223): the names given to RowManager *)
Fixpoint glob_loop (glob : string -> string -> bool) (es : list entry) (args : list string) (names : list string) : res (list string) :=
  match args with
  | [] => Ok names
  | p :: args =>
    match globNames glob es p with
    | None => Raise TypeError
    | Some l => glob_loop glob es args (fold_left (fun names n => if smem n names then names else names ++ [n])%list l names)
    end
  end.
(** Grepper.__init__ (lgg.py:212-223) *)
Definition grepper_names (glob : string -> string -> bool) (es : list entry) (args : list string) : res (list string) :=
  match args with
  | [] => Ok (starredNames 4 es)
  | _ => bind (glob_loop glob es args []) (fun l => Ok (ssort l))
  end.
(** one entry of load (lgg.py:330-335): KeyError if a name is missing *)
Fixpoint load_row (names : list string) (pd : pdict) : res (list f64 * list nat) :=
  match names with
  | [] => Ok ([], [])
  | n :: names =>
    match pd_get pd n with
    | None => Raise KeyError
    | Some (v, s) => bind (load_row names pd) (fun r => Ok (v :: fst r, s :: snd r))
    end
  end.
(** the loop (lgg.py:330-335) *)
Fixpoint load_rows (names : list string) (es : list entry) : res (list row) :=
  match es with
  | [] => Ok []
  | (s, pd) :: es =>
    bind (load_row names pd) (fun r => bind (load_rows names es) (fun l => Ok ({| rSSE := s; rvals := fst r; rstars := snd r |} :: l)))
  end.
(** Grepper(path, args) followed by load (lgg.py:325-339): the names and rows of
    the table.  The test for missing parameters in arrays() never fires (the
    lists hold lists) *)
Definition grepper_table (argsort : list f64 -> list nat) (glob : string -> string -> bool) (es : list entry) (args : list string) : res (list string * list row) :=
  bind (grepper_names glob es args) (fun names =>
  let names := setupNames names in
  bind (load_rows names es) (fun rows =>
  bind (trim argsort rows def_ratio def_diff def_rows) (fun rows => Ok (names, rows)))).

(** ** makeLines *)
(** " "*n (lgg.py:354, 368, 374, 378) *)
Definition spaces (n : nat) : string := String.concat "" (repeat " " n).
(** rj (lgg.py:341-354) of the text of x; " "*padding is empty for a negative
    padding *)
Definition rj (width : nat) (xs : string) : string := spaces (width - String.length xs) ++ xs.
(** one cell: the value, its stars and the space up to the next column
    (lgg.py:376-379) *)
Definition cell (width colSep : nat) (x : string * nat) : string :=
  let st := String.concat "" (repeat "*" (snd x)) in
  rj width (fst x) ++ st ++ spaces (colSep - snd x).
(** the heading (lgg.py:365-368) and a row before rstrip (lgg.py:374-380); the
    formatting of the numbers is an argument *)
Definition heading (width colSep : nat) (names : list string) : string :=
  String.concat (spaces colSep) (map (rj width) ("SSE" :: names)).
(** one row (lgg.py:374-379) *)
Definition table_row (width colSep : nat) (sse : string) (cells : list (string * nat)) : string :=
  rj width sse ++ spaces colSep ++ String.concat "" (map (cell width colSep) cells).
