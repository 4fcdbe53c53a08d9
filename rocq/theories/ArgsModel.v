(** * Model of the command line arguments, ade/args.py (class Args, lines 36-130).

    Not modelled: formatting of the help message. *)
From Coq Require Import String Ascii List Bool Arith.
From Verif Require Import Py LogModel.
From Verif Require SpecsModel.
Import ListNotations.
Local Open Scope nat_scope.

(** ** The description text *)
(** the newline character (args.py:71, 81) *)
Definition nl : ascii := ascii_of_nat 10.
(** str.split('\n') (args.py:71) *)
Fixpoint split_nl (s : text) : list text :=
  match s with
  | [] => [[]]
  | c :: s => if Ascii.eqb c nl then [] :: split_nl s
              else match split_nl s with h :: t => (c :: h) :: t | [] => [[c]] end
  end.
Section Text.
(** textwrap.fill (an oracle) *)
Variable fill : text -> text.
(** the loop of __init__ (args.py:74-79) *)
Fixpoint paras_loop (paraLines lines : list text) : list text :=
  match lines with
  | [] => []
  | line :: lines =>
    let line := strip line in
    let paraLines := match line with [] => paraLines | _ => paraLines ++ [line] end in
    match line, lines with
    | _ :: _, _ :: _ => paras_loop paraLines lines
    | _, _ => fill (join (txt " ") paraLines) :: paras_loop [] lines
    end
  end.
(** __init__ (args.py:71-81): description and epilog *)
Definition describe (s : text) : option text * option text :=
  match paras_loop [] (split_nl (strip s)) with
  | [] => (None, None)
  | [d] => (Some d, None)
  | d :: paras => (Some d, Some (join [nl; nl] paras))
  end.
End Text.

(** ** Help text with default *)
(** sub in s (args.py:88-89) *)
Fixpoint has_sub (sub s : text) : bool :=
  starts_with sub s || match s with [] => false | _ :: s => has_sub sub s end.
(** text.format(dest) for a text with "{}" in it.  Simplified: any other replacement
    field gives ValueError (python: that, KeyError or IndexError) (args.py:88) *)
Definition lb : ascii := "{"%char.
(** the closing brace (args.py:88) *)
Definition rb : ascii := "}"%char.
(** text.format(dest) (args.py:88) *)
Fixpoint format1 (used : bool) (dest : text) (s : text) : res text :=
  match s with
  | [] => Ok []
  | c :: s =>
    if Ascii.eqb c lb then
      match s with
      | d :: s => if Ascii.eqb d lb then bind (format1 used dest s) (fun r => Ok (lb :: r))
                  else if Ascii.eqb d rb then if used then Raise IndexError else bind (format1 true dest s) (fun r => Ok (dest ++ r))
                  else Raise ValueError
      | [] => Raise ValueError
      end
    else if Ascii.eqb c rb then
      match s with
      | d :: s => if Ascii.eqb d rb then bind (format1 used dest s) (fun r => Ok (rb :: r)) else Raise ValueError
      | [] => Raise ValueError
      end
    else bind (format1 used dest s) (fun r => Ok (c :: r))
  end.
(** addDefault (args.py:87-91); [default] is str of the default *)
Definition addDefault (s default dest : text) : res text :=
  bind (match dest with [] => Ok s | _ => if has_sub [lb; rb] s then format1 false dest s else Ok s end) (fun s =>
  Ok (if has_sub (txt "default") (SpecsModel.lower s) then s else s ++ txt " [" ++ default ++ txt "]")).

(** ** Options *)
(** values: bool, str, or of another type (args.py:110-115) *)
Inductive V : Type := VBool (b : bool) | VStr (s : text) | VOther (n : nat).
(** what was added to the parser; the short option is "-" and a letter (args.py:113-130) *)
Inductive decl : Type :=
| DOpt (letter : ascii) (long : text) (default : V) (help : text)
| DFlag (letter : ascii) (long : text) (help : text)
| DPos (help : text).
(** the command line as argparse splits it: options with their arguments, and the
    positional arguments.  Simplified: those stand together (args.py:105) *)
Inductive tok : Type := TShort (letter : ascii) (a : option text) | TLong (long : text) (a : option text).
(** sys.argv (args.py:105) *)
Record argv : Type := mkArgv { toks : list tok; posl : list text }.
(** the namespace made by parse_args (args.py:105) *)
Record nspace : Type := mkNs { opts : list (ascii * V); pos : option (list text) }.

Section Parse.
(** the constructor type(default) applied to a text, and str(v) *)
Variable conv : nat -> text -> res V.
Variable str_of : V -> text.
(** type(default)(text): bool gives whether it is not empty (args.py:115) *)
Definition convert (default : V) (s : text) : res V :=
  match default with
  | VBool _ => Ok (VBool (match s with [] => false | _ => true end))
  | VStr _ => Ok (VStr s)
  | VOther n => conv n s
  end.
(** equality of texts, as used by argparse (args.py:105) *)
Definition teqb (a b : text) : bool := if list_eq_dec ascii_dec a b then true else false.
(** the option a token is for (args.py:105) *)
Definition is_for (t : tok) (letter : ascii) (long : text) : bool :=
  match t with TShort c _ => Ascii.eqb c letter | TLong s _ => teqb s long end.
(** the argument of an option, if any (args.py:105) *)
Definition targ (t : tok) : option text := match t with TShort _ a | TLong _ a => a end.
(** argparse's own option -h, --help (args.py:82, 105) *)
Definition is_help (t : tok) : bool := is_for t "h" (txt "help").
(** setting an attribute of the namespace (args.py:105) *)
Fixpoint set_opt (c : ascii) (v : V) (l : list (ascii * V)) : list (ascii * V) :=
  match l with [] => [] | (d, w) :: l => if Ascii.eqb c d then (d, v) :: l else (d, w) :: set_opt c v l end.
(** one option on the command line; exiting with a message or the help is UserError
    (args.py:105) *)
Fixpoint parse_tok (ds : list decl) (t : tok) (l : list (ascii * V)) : res (list (ascii * V)) :=
  match ds with
  | [] => Raise UserError
  | DOpt c long default _ :: ds =>
    if is_for t c long then
      match targ t with
      | Some s => match convert default s with Ok v => Ok (set_opt c v l) | Raise _ => Raise UserError end
      | None => Raise UserError
      end
    else parse_tok ds t l
  | DFlag c long _ :: ds =>
    if is_for t c long then match targ t with None => Ok (set_opt c (VBool true) l) | Some _ => Raise UserError end
    else parse_tok ds t l
  | DPos _ :: ds => parse_tok ds t l
  end.
(** all options, in order (args.py:105) *)
Fixpoint parse_toks (ds : list decl) (ts : list tok) (l : list (ascii * V)) : res (list (ascii * V)) :=
  match ts with
  | [] => Ok l
  | t :: ts => if is_help t then Raise UserError else bind (parse_tok ds t l) (parse_toks ds ts)
  end.
(** the attributes before parsing: default=default, and False for store_true (args.py:114, 121) *)
Definition defaults (ds : list decl) : list (ascii * V) :=
  flat_map (fun d => match d with DOpt c _ v _ => [(c, v)] | DFlag c _ _ => [(c, VBool false)] | DPos _ => [] end) ds.
(** whether positional arguments were declared (args.py:129-130) *)
Definition has_pos (ds : list decl) : bool := existsb (fun d => match d with DPos _ => true | _ => false end) ds.
(** argparse.ArgumentParser.parse_args for such declarations (args.py:105) *)
Definition parse_args (ds : list decl) (av : argv) : res nspace :=
  bind (parse_toks ds (toks av) (defaults ds)) (fun l =>
  if has_pos ds then Ok (mkNs l (Some (posl av)))
  else match posl av with [] => Ok (mkNs l None) | _ => Raise UserError end).

(** ** The object *)
(** parser and args (args.py:69, 82); [parses] counts calls of parse_args *)
Record ast : Type := mkAst { decls : list decl; parsed : option nspace; parses : nat }.
(** __init__ (args.py:69, 82) *)
Definition fresh : ast := mkAst [] None 0.

(** add_argument refuses an option that is already there; help is.  (ArgumentError,
    here ValueError.)  Several positional arguments are not refused (args.py:113-121) *)
Definition option_of (d : decl) : option (ascii * text) := match d with DOpt c s _ _ | DFlag c s _ => Some (c, s) | DPos _ => None end.
(** whether the parser has such an option already (args.py:113-121) *)
Definition conflict (d : decl) (c : ascii) (s : text) : bool :=
  match option_of d with Some (c', s') => Ascii.eqb c c' || teqb s s' | None => false end.
(** parser.add_argument (args.py:113-130) *)
Definition add_argument (st : ast) (d : decl) : ast * res unit :=
  match option_of d with
  | Some (c, s) =>
    if Ascii.eqb c "h" || teqb s (txt "help") || existsb (fun d => conflict d c s) (decls st) then (st, Raise ValueError)
    else (mkAst (decls st ++ [d]) (parsed st) (parses st), Ok tt)
  | None => (mkAst (decls st ++ [d]) (parsed st) (parses st), Ok tt)
  end.

(** values of attributes (args.py:106) *)
Inductive AV : Type := ANone | AVal (v : V) | APos (l : list text).
(** getattr of the namespace (args.py:106) *)
Fixpoint lookup (c : ascii) (l : list (ascii * V)) : option V :=
  match l with [] => None | (d, v) :: l => if Ascii.eqb c d then Some v else lookup c l end.
(** names of attributes that are not of the object or the class: a letter, "_args_", or
    another one (args.py:103-106) *)
Inductive aname : Type := NLetter (c : ascii) | NArgs | NOther.
(** getattr(self.args, name, None) (args.py:106) *)
Definition ns_get (ns : nspace) (n : aname) : AV :=
  match n with
  | NLetter c => match lookup c (opts ns) with Some v => AVal v | None => ANone end
  | NArgs => match pos ns with Some l => APos l | None => ANone end
  | NOther => ANone
  end.
(** __getattr__ (args.py:103-106) *)
Definition getattr (av : argv) (st : ast) (n : aname) : ast * res AV :=
  match parsed st with
  | Some ns => (st, Ok (ns_get ns n))
  | None =>
    match parse_args (decls st) av with
    | Ok ns => (mkAst (decls st) (Some ns) (S (parses st)), Ok (ns_get ns n))
    | Raise e => (mkAst (decls st) None (S (parses st)), Raise e)
    end
  end.
(** the truth value of an attribute (args.py:127) *)
Definition truth (a : AV) : bool :=
  match a with
  | ANone => false
  | AVal (VBool b) => b
  | AVal (VStr s) => match s with [] => false | _ => true end
  | AVal (VOther n) => negb (Nat.eqb n 0)
  | APos l => match l with [] => false | _ => true end
  end.

(** what can be done with the object (args.py:84-130) *)
Inductive op : Type :=
| Call4 (letter : ascii) (long : text) (default : V) (help : text)   (* four arguments *)
| Call3 (letter : ascii) (long : text) (help : text)                 (* three arguments *)
| CallText (help : text)                                             (* one text *)
| CallFun (main : bool)                                              (* a callable, whether of module __main__ *)
| CallOther                                                          (* another number of arguments *)
| Get (n : aname) | Len | Iter | Item (k : nat) | Truth.
(** results of these (args.py:84-130) *)
Inductive out : Type := ONone | ORun | OAttr (a : AV) | ONat (n : nat) | OList (l : list text) | OText (s : text) | OBool (b : bool).
(** getattr(self, '_args_', []): the default is never used, as __getattr__ raises no
    AttributeError (args.py:93-101) *)
Definition args_of (av : argv) (st : ast) : ast * res AV := getattr av st NArgs.
(** use of it as a list; None is no sequence (args.py:93-101) *)
Definition with_list (r : ast * res AV) (f : list text -> res out) : ast * res out :=
  match r with
  | (st, Ok (APos l)) => (st, f l)
  | (st, Ok _) => (st, Raise TypeError)
  | (st, Raise e) => (st, Raise e)
  end.
(** a step (args.py:84-130) *)
Definition step (av : argv) (st : ast) (o : op) : ast * res out :=
  match o with
  | Call4 c long default help =>
    match addDefault help (str_of default) [c] with
    | Ok h => let (st, r) := add_argument st (DOpt c long default h) in (st, bind r (fun _ => Ok ONone))
    | Raise e => (st, Raise e)
    end
  | Call3 c long help => let (st, r) := add_argument st (DFlag c long help) in (st, bind r (fun _ => Ok ONone))
  | CallText help => let (st, r) := add_argument st (DPos help) in (st, bind r (fun _ => Ok ONone))
  | CallFun main =>
    if main then
      match getattr av st (NLetter "h") with
      | (st, Ok a) => (st, Ok (if truth a then ONone else ORun))
      | (st, Raise e) => (st, Raise e)
      end
    else (st, Ok ONone)
  | CallOther => (st, Ok ONone)
  | Get n => let (st, r) := getattr av st n in (st, bind r (fun a => Ok (OAttr a)))
  | Len => with_list (args_of av st) (fun l => Ok (ONat (length l)))
  | Iter => with_list (args_of av st) (fun l => Ok (OList l))
  | Item k => with_list (args_of av st) (fun l => match nth_error l k with Some s => Ok (OText s) | None => Raise IndexError end)
  | Truth => with_list (args_of av st) (fun l => Ok (OBool (0 <? length l)))
  end.
(** any sequence of uses (args.py:84-130) *)
Fixpoint steps (av : argv) (st : ast) (os : list op) : ast * list (res out) :=
  match os with
  | [] => (st, [])
  | o :: os => let (st, r) := step av st o in let (st, rs) := steps av st os in (st, r :: rs)
  end.
End Parse.
