(** * Model of EvalTimer and Picklable (ade/util.py) and of the image viewer's
    choice of a program (ade/image.py). *)
From Coq Require Import Bool Arith ZArith Ascii String List.
From Verif Require Import Flt Py.
Import ListNotations.
Local Open Scope nat_scope.

(** ** EvalTimer (util.py:125-192) *)
(** The dicts times and Ns (util.py:149-150) have the same keys, as they are only
    updated together (util.py:164-168): one association list, in order of insertion *)
Definition ettab := list (nat * (f64 * nat)).
(** done (util.py:164-168): the ID's sum of times of completion and count *)
Fixpoint et_done (tab : ettab) (id : nat) (now : f64) : ettab :=
  match tab with
  | [] => [(id, (fadd fzero now, 1))]
  | (i, (s, n)) :: r => if i =? id then (i, (fadd s now, S n)) :: r else (i, (s, n)) :: et_done r id now
  end.
(** A call of a part (util.py:152-171) at time t0, and its completion.  t0 is
    assigned (util.py:170) but never used.  Simplified: func returns a Deferred *)
Inductive tev : Type := TCall (id : nat) (t0 : f64) | TDone (id : nat) (now : f64).
(** what a completed call does to the table (util.py:164-168) *)
Definition et_step (tab : ettab) (e : tev) : ettab :=
  match e with TCall _ _ => tab | TDone id now => et_done tab id now end.
(** several calls (util.py:149-150, 164-168) *)
Definition et_run (evs : list tev) : ettab := fold_left et_step evs [].
(** sorted by key (util.py:191): a stable sort, here by insertion *)
Fixpoint pinsert (x : nat * f64) (l : list (nat * f64)) : list (nat * f64) :=
  match l with
  | [] => [x]
  | y :: t => if fltb (snd y) (snd x) then y :: pinsert x t else x :: l
  end.
(** the stable sort (util.py:191) *)
Fixpoint psort (l : list (nat * f64)) : list (nat * f64) :=
  match l with [] => [] | x :: t => pinsert x (psort t) end.
(** __iter__ (util.py:173-192) *)
Definition et_iter (tab : ettab) : list nat :=
  map fst (psort (map (fun e => (fst e, fdiv (fst (snd e)) (fofZ (Z.of_nat (snd (snd e)))))) tab)).

(** ** Picklable (util.py:78-98), for a class without __slots__ *)
(** An object: its own attributes; [cls] are the names dir() finds in its class.
    dir(self) has the names of both, each once (sorted, which does not matter).
    (util.py:82-98) *)
Definition attrs (V : Type) := list (string * V).
(** getattr for one of the object's own attributes (util.py:93) *)
Fixpoint attr {V} (n : string) (a : attrs V) : option V :=
  match a with [] => None | (m, v) :: r => if String.eqb m n then Some v else attr n r end.
(** name.startswith('_') (util.py:91) *)
Definition private (n : string) : bool := match n with String c _ => Ascii.eqb c "_" | EmptyString => false end.
(** __getstate__ (util.py:82-94).  A name of the class is left out, so every name
    kept is one of the object's own *)
Definition pk_getstate {V} (cls : list string) (own : attrs V) : attrs V :=
  filter (fun e => negb (private (fst e) || existsb (String.eqb (fst e)) cls)) own.
(** setattr, and __setstate__ (util.py:96-98) *)
Fixpoint set_attr {V} (n : string) (v : V) (a : attrs V) : attrs V :=
  match a with [] => [(n, v)] | (m, w) :: r => if String.eqb m n then (m, v) :: r else (m, w) :: set_attr n v r end.
(** __setstate__ (util.py:96-98) *)
Definition pk_setstate {V} (own state : attrs V) : attrs V :=
  fold_left (fun a e => set_attr (fst e) (snd e) a) state own.

(** ** ImageViewer.spawnViewer (image.py:137-165) *)
Definition text := list ascii.
(** arg.replace("{}", name) (image.py:152) *)
Fixpoint put_name (name s : text) : text :=
  match s with
  | [] => []
  | c :: t => match t with
              | d :: t' => if Ascii.eqb c "{" && Ascii.eqb d "}" then name ++ put_name name t' else c :: put_name name t
              | [] => [c]
              end
  end.
(** "{}" in arg (image.py:151) *)
Fixpoint has_braces (s : text) : bool :=
  match s with
  | [] => false
  | c :: t => match t with d :: _ => Ascii.eqb c "{" && Ascii.eqb d "}" || has_braces t | [] => false end
  end.
(** os.path.basename: what follows the last slash (image.py:149, 152) *)
Fixpoint basename_from (acc s : text) : text :=
  match s with [] => acc | c :: t => if Ascii.eqb c "/" then basename_from [] t else basename_from (acc ++ [c]) t end.
(** os.path.basename (image.py:149, 152) *)
Definition basename : text -> text := basename_from [].
(** what spawnViewer does (image.py:145-165) *)
Inductive vev : Type := VSpawn (path : text) (args : list text) | VError (prog : text) | VNone.
(** [there path]: the program exists; [complains path]: run on the file, it writes
    to its standard error.  Simplified: the PID file is not modelled (image.py:145-165) *)
Fixpoint spawn_viewer (there complains : text -> bool) (quiet : bool) (file : text) (exs : list (text * list text)) : list vev :=
  match exs with
  | [] => if quiet then [] else [VNone]
  | (path, opts) :: r =>
    if there path then
      let args := basename path :: map (put_name (basename file)) (filter has_braces opts) ++ [file] in
      VSpawn path args ::
      (if complains path then (if quiet then [] else [VError (basename path)]) ++ spawn_viewer there complains quiet file r else [])
    else spawn_viewer there complains quiet file r
  end.
(** exList (image.py:56-59) *)
Definition exlist : list (text * list text) :=
  [(list_ascii_of_string "/usr/bin/pqiv", [list_ascii_of_string "--disable-scaling"; list_ascii_of_string "--window-title={}"]);
   (list_ascii_of_string "/usr/bin/qiv", [list_ascii_of_string "-Teit"])].
