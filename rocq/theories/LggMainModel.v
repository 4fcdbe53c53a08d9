(** * Model of ade/scripts/lgg.py as a program: from the command line to the
    printed table.  Reading the file is LogModel.v, the rows and their trimming
    LggModel.v *)
From Coq Require Import ZArith Ascii String List Bool Arith.
From Verif Require Import Flt Py ParamModel LogModel LggModel.
Import ListNotations.

Section Main.
(** np.argsort, fnmatch.fnmatchcase, float() of a text, "{:0.5g}" of a number and
    os.path.expanduser are arguments *)
Variable argsort : list f64 -> list nat.
Variable glob : string -> string -> bool.
Variable tofloat : text -> option f64.
Variable fmt : f64 -> string.
Variable expanduser : string -> string.

(** what filerator yields (lgg.py:225-294) with a value as text *)
Notation tentry := (f64 * tdict (text * text))%type.

(** an entry as seen by starredNames and globNames, which do not look at the
    values (lgg.py:296-323) *)
Definition view (e : tentry) : entry :=
  (fst e, map (fun p => (string_of_list_ascii (fst p), (fzero, List.length (snd (snd p))))) (snd e)).

(** Grepper.__init__ (lgg.py:212-223) on what the file yields and how reading it
    ends.  starredNames reads all of it; globNames returns at the first entry, and
    None, over which the caller cannot loop, if there is none *)
Definition main_names (es : list tentry) (f : fin) (args : list string) : res (list string) :=
  match args, es, f with
  | [], _, Failed e => Raise e
  | _ :: _, [], Failed e => Raise e
  | _, _, _ => grepper_names glob (map view es) args
  end.

(** the loop over the names in load (lgg.py:330-335): values[k] = float(vk) *)
Fixpoint main_row (names : list string) (pd : tdict (text * text)) : res (list f64 * list nat) :=
  match names with
  | [] => Ok ([], [])
  | n :: names =>
    match tget pd (list_ascii_of_string n) with
    | None => Raise KeyError
    | Some (v, st) =>
      match tofloat v with
      | None => Raise ValueError
      | Some x => bind (main_row names pd) (fun r => Ok (x :: fst r, List.length st :: snd r))
      end
    end
  end.
(** the loop over the entries (lgg.py:330-335); what is wrong with the file shows
    after the entries before it *)
Fixpoint main_rows (names : list string) (es : list tentry) (f : fin) : res (list row) :=
  match es with
  | [] => match f with Failed e => Raise e | _ => Ok [] end
  | (s, pd) :: es =>
    bind (main_row names pd) (fun r => bind (main_rows names es f) (fun l => Ok ({| rSSE := s; rvals := fst r; rstars := snd r |} :: l)))
  end.

(** str.rstrip() (lgg.py:380) *)
Definition rstrip_s (s : string) : string := string_of_list_ascii (rev (lstrip (rev (list_ascii_of_string s)))).
(** makeLines (lgg.py:356-383); width and colSep (lgg.py:204-205) *)
Definition make_lines (names : list string) (rows : list row) : list string :=
  let h := heading 10 3 names in
  ([""%string; h; String.concat "" (repeat "-"%string (String.length h + 2))] ++
   map (fun r => rstrip_s (LggModel.table_row 10 3 (fmt (rSSE r)) (combine (map fmt (rvals r)) (rstars r)))) rows ++ [""%string])%list.

(** what becomes of the program: an exception from Grepper() is not caught, one
    from the call is shown and examined in the debugger (lgg.py:391-411).
    [Endless] is reading that does not come to an end *)
Inductive outcome : Type := NoFile (path : string) | Uncaught (e : exn) | Debugger (e : exn) | Prints (lines : list string) | Endless.

(** '.' in args[0] (lgg.py:398) *)
Definition has_dot (s : string) : bool := existsb (Ascii.eqb ".") (list_ascii_of_string s).
(** the file name and the other arguments (lgg.py:395-400) *)
Definition main_args (argv : list string) : string * list string :=
  match argv with
  | a :: l => if has_dot a then (a, l) else ("~/pfinder.log"%string, argv)
  | [] => ("~/pfinder.log"%string, [])
  end.
(** Grepper(filePath, args) and its call (lgg.py:385-388, 405-407).  The names go
    through RowManager (lgg.py:223) *)
Definition grep_file (lines : list text) (args : list string) : outcome :=
  let (es, f) := filerator tofloat lines in
  match f with
  | OutOfFuel => Endless
  | _ =>
    match main_names es f args with
    | Raise e => Uncaught e
    | Ok names =>
      let names := setupNames names in
      match bind (main_rows names es f) (fun rows => trim argsort rows def_ratio def_diff def_rows) with
      | Raise e => Debugger e
      | Ok rows => Prints (make_lines names rows)
      end
    end
  end.
(** main (lgg.py:391-411).  [fs] gives the lines of the files that exist *)
Definition lgg_main (fs : string -> option (list text)) (argv : list string) : outcome :=
  let (name, args) := main_args argv in
  let path := expanduser name in
  match fs path with
  | None => NoFile path
  | Some lines => grep_file lines args
  end.
End Main.
