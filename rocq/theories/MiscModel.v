(** * Model of small functions: ade/scripts/examples.py extract,
    ade/__init__.py extract_examples, the options of DifferentialEvolution *)
From Coq Require Import ZArith String Ascii List Bool Arith.
From Verif Require Import Flt Py.
Import ListNotations.
Local Open Scope string_scope.

(** ** Extracting the examples *)
(** what a path is: a regular file with contents, or a directory.  Links,
    permissions and I/O errors are not modelled (examples.py:62-67) *)
Inductive node : Set := NFile (c : string) | NDir.
(** the target ~/ade-examples: absent, a regular file, or a directory given by
    what each name is (examples.py:49-56) *)
Inductive target : Type := TAbsent | TFile (c : string) | TDir (m : string -> option node).

(** [a-z] (examples.py:57) *)
Definition is_lower (c : ascii) : bool := (97 <=? nat_of_ascii c)%nat && (nat_of_ascii c <=? 122)%nat.
(** the end of the pattern (examples.py:57) *)
Fixpoint ends_with (s e : string) : bool :=
  String.eqb s e || match s with String _ s => ends_with s e | EmptyString => false end.
(** the pattern [a-z].+\.(py|c|txt|specs)$ (examples.py:57, __init__.py:56; there
    without specs).  File names are taken to have no newline *)
Definition re_file (exts : list string) (name : string) : bool :=
  match name with
  | String c (String _ rest) => is_lower c && existsb (fun e => ends_with rest ("." ++ e)) exts
  | _ => false
  end.
(** the extensions (examples.py:57) *)
Definition exts_script : list string := ["py"; "c"; "txt"; "specs"].
(** the extensions (__init__.py:56) *)
Definition exts_package : list string := ["py"; "c"; "txt"].

(** shutil.copy to a name (examples.py:67) *)
Definition put (m : string -> option node) (n : string) (x : node) : string -> option node :=
  fun n' => if String.eqb n' n then Some x else m n'.
(** the loop over the packaged files (examples.py:58-68); [src] lists the
    directory with what each name is *)
Fixpoint extract_loop (exts : list string) (src : list (string * node)) (m : string -> option node) : string -> option node :=
  match src with
  | [] => m
  | (n, x) :: src =>
    extract_loop exts src
      (if re_file exts n then
         match m n with
         | Some _ => m
         | None => match x with NFile c => put m n (NFile c) | NDir => m end
         end
       else m)
  end.
(** with a regular file in place of the target directory, nothing below it
    exists and the first copy raises NotADirectoryError (an OSError) (examples.py:58-67) *)
Definition copies (exts : list string) (x : string * node) : bool :=
  re_file exts (fst x) && match snd x with NFile _ => true | NDir => false end.
(** extract (examples.py:37-68), extract_examples (__init__.py:33-67): the
    target afterwards and the exception, if any *)
Definition extract (exts : list string) (src : list (string * node)) (t : target) : target * option exn :=
  match t with
  | TAbsent => (TDir (extract_loop exts src (fun _ => None)), None)
  | TDir m => (TDir (extract_loop exts src m), None)
  | TFile c => (TFile c, if existsb (copies exts) src then Some OSError else None)
  end.

(** ** Options of DifferentialEvolution *)
(** a value: None, a number, or anything else (de.py:391-414) *)
Inductive pyv : Set := VNone | VNum (x : f64) | VOther (n : nat).
(** attributes (de.py:391-402): the numbers are exact; True, False and the
    tuple (0.5, 1.0) are [VOther] 1, 0 and 2 *)
Definition de_defaults : list (string * pyv) :=
  [ ("CR", VNum (flit 3602879701896397%Z (-52)%Z)); ("F", VOther 2); ("maxiter", VNum (fofZ 500%Z));
    ("randomBase", VOther 0); ("uniform", VOther 0); ("adaptive", VOther 1); ("bitterEnd", VOther 0);
    ("dwellByGrave", VNum (fofZ 5%Z)); ("goalSSE", VNone); ("xSSE", VOther 0) ].
(** the loop of __init__ (de.py:411-414): [kw name] is the keyword if given,
    [attr name] the attribute the object had before, if any *)
Definition de_option (kw attr : string -> option pyv) (name : string) (dflt : pyv) : pyv :=
  let v := match kw name with Some v => v | None => match attr name with Some v => v | None => VNone end end in
  match v with VNone => dflt | v => v end.
(** the loop (de.py:411-414) *)
Definition de_setattrs (kw attr : string -> option pyv) : string -> option pyv :=
  fold_left (fun at_ nd => fun n => if String.eqb n (fst nd) then Some (de_option kw at_ (fst nd) (snd nd)) else at_ n) de_defaults attr.
(** __init__ (de.py:404-421) as far as the options go: the attributes, or the
    exception; comparing something that is no number raises TypeError *)
Definition de_init (kw attr : string -> option pyv) : res (string -> option pyv) :=
  let a := de_setattrs kw attr in
  match a "CR" with
  | Some (VNum cr) => if fltb cr fzero || fltb fone cr then Raise ValueError else Ok a
  | _ => Raise TypeError
  end.
