(** * Model of ade/specs.py *)
From Coq Require Import Ascii List Bool Arith ZArith NArith.
From Verif Require Import Py.
Import ListNotations.

(** text: lists of characters.  Simplified: character classes are those of
    ASCII; Python's extra Unicode whitespace, digits and case pairs are not
    modelled (specs.py:220-221) *)
Definition str : Set := list ascii.
(** equality of text (specs.py:204, 251) *)
Fixpoint str_eqb (a b : str) : bool :=
  match a, b with
  | [], [] => true
  | x :: a, y :: b => Ascii.eqb x y && str_eqb a b
  | _, _ => false
  end.

(** dict keys (specs.py:187-193): strings or integers *)
Inductive key : Set := KStr (s : str) | KInt (z : N).
(** equality of dict keys (specs.py:53-55, 145-146) *)
Definition key_eqb (a b : key) : bool :=
  match a, b with
  | KStr a, KStr b => str_eqb a b
  | KInt a, KInt b => N.eqb a b
  | _, _ => false
  end.

(** values (specs.py:196-209, 254-263): None, booleans, float(text), lower
    case text; a line with other than one value makes a list.  A float is
    represented by the text given to float() *)
Inductive scalar : Set := SNone | SBool (b : bool) | SNum (s : str) | SStr (s : str).
(** a value or a list of values (specs.py:254-263) *)
Inductive leaf : Set := LOne (x : scalar) | LSeq (l : list scalar).
(** the value of an attribute or dict entry: a leaf or a dict (specs.py:53-55, 121) *)
Inductive val : Set := Leaf (l : leaf) | Dct (d : list (key * val)).

(** ** dicts *)
(** specs.py:145-146, 152 *)
Fixpoint aget {K} (eqb : K -> K -> bool) (d : list (K * val)) (k : K) : option val :=
  match d with
  | [] => None
  | (k', v) :: t => if eqb k k' then Some v else aget eqb t k
  end.
(** assignment to an entry or attribute, which keeps its place if there (specs.py:53-55, 128) *)
Fixpoint aset {K} (eqb : K -> K -> bool) (d : list (K * val)) (k : K) (v : val) : list (K * val) :=
  match d with
  | [] => [(k, v)]
  | (k', v') :: t => if eqb k k' then (k', v) :: t else (k', v') :: aset eqb t k v
  end.
(** lookup in a dict (specs.py:145-146) *)
Definition dget : list (key * val) -> key -> option val := aget key_eqb.
(** assignment to an entry of a dict (specs.py:55) *)
Definition dset : list (key * val) -> key -> val -> list (key * val) := aset key_eqb.

(** DictStacker.add (specs.py:44-56), the while loop.  Where a key on the way
    holds something that is not a dict: no setdefault method (AttributeError),
    and item assignment works for a list with an index in range only *)
Fixpoint ds_add (d : list (key * val)) (v : val) (keys : list key) : res (list (key * val)) :=
  match keys with
  | [] => Raise IndexError
  | k :: keys' =>
    match keys' with
    | [] => Ok (dset d k v)
    | k2 :: keys2 =>
      match dget d k with
      | None => bind (ds_add [] v keys') (fun s => Ok (dset d k (Dct s)))
      | Some (Dct s) => bind (ds_add s v keys') (fun s => Ok (dset d k (Dct s)))
      | Some (Leaf l) =>
        match keys2 with
        | _ :: _ => Raise AttributeError
        | [] =>
          match l, k2, v with
          | LSeq l, KInt z, Leaf (LOne x) =>
            if (N.to_nat z <? length l) then Ok (dset d k (Leaf (LSeq (upd (N.to_nat z) x l)))) else Raise IndexError
          | LSeq l, KInt z, _ =>
            (* a list or dict as element of a list: not representable here *)
            Raise UserError
          | _, _, _ => Raise TypeError
          end
        end
      end
    end
  end.

(** Specs.get on a dict (specs.py:141-151); {} when a key is missing.
    names.pop(0) on an empty list raises IndexError *)
Fixpoint get_in (d : list (key * val)) (names : list key) : res val :=
  match names with
  | [] => Raise IndexError
  | first :: names' =>
    match dget d first with
    | None => Ok (Dct [])
    | Some (Dct s) => match names' with [] => Ok (Dct s) | _ => get_in s names' end
    | Some (Leaf l) => Ok (Leaf l)
    end
  end.

(** a Specs object: its instance attributes and the DictStacker in progress
    (specs.py:101-128).  Simplified: attribute names that clash with the class's
    own (get, add, ds, dict_start, dict_add, dict_done and dunder names) are not
    modelled *)
Record specs : Set := mkSpecs { attrs : list (str * val); ds : option (key * list (key * val)) }.
(** Specs.add (specs.py:124-128): setattr with an int raises TypeError *)
Definition s_add (s : specs) (name : key) (v : val) : res specs :=
  match name with
  | KStr n => Ok (mkSpecs (aset str_eqb (attrs s) n v) (ds s))
  | KInt _ => Raise TypeError
  end.
(** Specs.get (specs.py:130-156) *)
Definition s_get (s : specs) (names : list key) : res val :=
  match names with
  | [] => Raise IndexError
  | KInt _ :: _ => Raise TypeError
  | KStr first :: names' =>
    match aget str_eqb (attrs s) first with
    | None => match names' with [] => Ok (Dct []) | _ => get_in [] names' end
    | Some (Dct d) => match names' with [] => Ok (Dct d) | _ => get_in d names' end
    | Some (Leaf l) => Ok (Leaf l)
    end
  end.
(** dict_start, dict_add, dict_done (specs.py:101-122); without a started dict
    self.ds does not exist *)
Definition s_start (s : specs) (name : key) : specs := mkSpecs (attrs s) (Some (name, [])).
(** dict_add (specs.py:108-113) *)
Definition s_dadd (s : specs) (v : val) (keys : list key) : res specs :=
  match ds s with
  | None => Raise AttributeError
  | Some (n, d) => bind (ds_add d v keys) (fun d => Ok (mkSpecs (attrs s) (Some (n, d))))
  end.
(** dict_done (specs.py:115-122) *)
Definition s_done (s : specs) : res specs :=
  match ds s with
  | None => Raise AttributeError
  | Some (n, d) => bind (s_add s n (Dct d)) (fun s => Ok (mkSpecs (attrs s) None))
  end.

(** ** text *)
(** str.strip and str.split without argument (specs.py:189, 221, 241) *)
Definition is_ws (c : ascii) : bool :=
  let n := nat_of_ascii c in ((9 <=? n) && (n <=? 13)) || ((28 <=? n) && (n <=? 32)).
(** a character of str.isdigit (specs.py:190) *)
Definition is_digit (c : ascii) : bool := let n := nat_of_ascii c in (48 <=? n) && (n <=? 57).
(** one character of str.lower (specs.py:201) *)
Definition lower_c (c : ascii) : ascii :=
  let n := nat_of_ascii c in if (65 <=? n) && (n <=? 90) then ascii_of_nat (n + 32) else c.
(** value.lower() (specs.py:201) *)
Definition lower : str -> str := map lower_c.
(** str.strip() (specs.py:189, 221) *)
Fixpoint lstrip (l : str) : str := match l with c :: t => if is_ws c then lstrip t else l | [] => [] end.
(** the whole of it (specs.py:189, 221) *)
Definition strip (l : str) : str := rev (lstrip (rev (lstrip l))).
(** str.split() without argument: [cur] is the word being read, reversed (specs.py:241) *)
Fixpoint split_ws (cur : str) (l : str) : list str :=
  match l with
  | [] => match cur with [] => [] | _ => [rev cur] end
  | c :: t =>
    if is_ws c then match cur with [] => split_ws [] t | _ => rev cur :: split_ws [] t end
    else split_ws (c :: cur) t
  end.
(** str.split(c) (specs.py:188) *)
Fixpoint split_on (sep : ascii) (cur : str) (l : str) : list str :=
  match l with
  | [] => [rev cur]
  | c :: t => if Ascii.eqb c sep then rev cur :: split_on sep [] t else split_on sep (c :: cur) t
  end.
(** str.startswith (specs.py:222, 224, 256) *)
Fixpoint startswith (pre l : str) : bool :=
  match pre, l with
  | [], _ => true
  | a :: pre, b :: l => Ascii.eqb a b && startswith pre l
  | _, [] => false
  end.
(** token.rstrip(',') (specs.py:259) *)
Fixpoint dropc (c : ascii) (l : str) : str := match l with x :: t => if Ascii.eqb x c then dropc c t else l | [] => [] end.
(** token.rstrip(',') (specs.py:259) *)
Definition rstripc (c : ascii) (l : str) : str := rev (dropc c (rev l)).

(** specs.py:188 *)
Definition ch_colon : ascii := ":".
(** specs.py:187 *)
Definition ch_quote : ascii := "'".
(** specs.py:222, 256 *)
Definition ch_hash : ascii := "#".
(** specs.py:224 *)
Definition ch_dash : ascii := "-".
(** specs.py:251 *)
Definition ch_eq : ascii := "=".
(** specs.py:259 *)
Definition ch_comma : ascii := ",".
(** a sign (specs.py:172) *)
Definition ch_plus : ascii := "+".
(** the decimal point (specs.py:172) *)
Definition ch_dot : ascii := ".".
(** the sign of an exponent (specs.py:172) *)
Definition ch_e : ascii := "e".

(** part.isdigit(): not empty, all digits (specs.py:190) *)
Definition isdigit (l : str) : bool := match l with [] => false | _ => forallb is_digit l end.
(** int(part) for a digit string (specs.py:192) *)
Definition int_of (l : str) : N :=
  fold_left (fun n c => (10 * n + N.of_nat (nat_of_ascii c - 48))%N) l 0%N.

(** SpecsLoader.parseName (specs.py:177-194) on the first token *)
Definition parse_name (first : str) : list key :=
  map (fun part => let part := strip part in if isdigit part then KInt (int_of part) else KStr part)
      (split_on ch_colon [] (filter (fun c => negb (Ascii.eqb c ch_quote)) first)).

(** reNum.match (specs.py:172, 207): [+-]?[0-9]+(\.[0-9]+)?([e][+-]?[0-9]+)?$
    A greedy scan decides the same language, as what may follow each part
    starts with a different character *)
Fixpoint digits (l : str) : str := match l with c :: t => if is_digit c then digits t else l | [] => [] end.
(** the part [\+\-]? (specs.py:172) *)
Definition opt_sign (l : str) : str :=
  match l with c :: t => if Ascii.eqb c ch_plus || Ascii.eqb c ch_dash then t else l | [] => [] end.
(** one or more digits: the rest (specs.py:172) *)
Definition digits1 (l : str) : option str :=
  match l with c :: t => if is_digit c then Some (digits t) else None | [] => None end.
(** the part (\.[0-9]+)? (specs.py:172) *)
Definition opt_frac (l : str) : option str :=
  match l with c :: t => if Ascii.eqb c ch_dot then digits1 t else Some l | [] => Some [] end.
(** the part ([e][\+\-]?[0-9]+)? (specs.py:172) *)
Definition opt_exp (l : str) : option str :=
  match l with c :: t => if Ascii.eqb c ch_e then digits1 (opt_sign t) else Some l | [] => Some [] end.
(** the whole expression (specs.py:172, 206) *)
Definition is_num (l : str) : bool :=
  match digits1 (opt_sign l) with
  | None => false
  | Some l => match opt_frac l with
              | None => false
              | Some l => match opt_exp l with Some [] => true | _ => false end
              end
  end.

(** 'none' (specs.py:203) *)
Definition t_none : str := ["n"; "o"; "n"; "e"]%char.
(** 'true' (specs.py:203) *)
Definition t_true : str := ["t"; "r"; "u"; "e"]%char.
(** 'false' (specs.py:203) *)
Definition t_false : str := ["f"; "a"; "l"; "s"; "e"]%char.
(** SpecsLoader.parseValue (specs.py:196-209) *)
Definition parse_value (value : str) : scalar :=
  let value := lower value in
  if str_eqb value t_none then SNone
  else if str_eqb value t_true then SBool true
  else if str_eqb value t_false then SBool false
  else if is_num value then SNum value
  else SStr value.

(** the values of a line (specs.py:254-263): up to a comment token *)
Fixpoint parse_seq (tokens : list str) : list scalar :=
  match tokens with
  | [] => []
  | t :: ts => if startswith [ch_hash] t then [] else parse_value (rstripc ch_comma t) :: parse_seq ts
  end.
(** a single value is no list (specs.py:260-263) *)
Definition leaf_of (l : list scalar) : leaf := match l with [x] => LOne x | _ => LSeq l end.

(** truth value of dictName (specs.py:232) *)
Definition truthy_key (k : option key) : bool :=
  match k with Some (KStr (_ :: _)) => true | Some (KInt z) => negb (N.eqb z 0) | _ => false end.

(** the loop variables of read (specs.py:218-219) and the Specs object *)
Record rdst : Set := mkRd { dictDef : bool; dictName : option key; sp : specs }.

(** the loop body of read (specs.py:221-271) on one line *)
Definition read_line (st : rdst) (line : str) : res rdst :=
  let line := strip line in
  match line with
  | [] => Ok st
  | _ =>
    if startswith [ch_hash] line then Ok st
    else if startswith [ch_dash; ch_dash] line then
      if dictDef st then bind (s_done (sp st)) (fun s => Ok (mkRd false None s))
      else match dictName st with
           | Some n => if truthy_key (Some n) then Ok (mkRd true (Some n) (s_start (sp st) n)) else Raise ValueError
           | None => Raise ValueError
           end
    else
      match split_ws [] line with
      | [] => Raise IndexError
      | first :: tokens =>
        let nameParts := parse_name first in
        let body :=
          match tokens with
          | [] => Raise IndexError
          | t0 :: ts =>
            let tokens := if str_eqb t0 [ch_eq] then ts else tokens in
            let seq := leaf_of (parse_seq tokens) in
            if dictDef st then bind (s_dadd (sp st) (Leaf seq) nameParts) (fun s => Ok (mkRd (dictDef st) (dictName st) s))
            else match nameParts with
                 | [] => Raise IndexError
                 | n :: _ => bind (s_add (sp st) n (Leaf seq)) (fun s => Ok (mkRd (dictDef st) (dictName st) s))
                 end
          end in
        if dictDef st then body
        else if 1 <? length nameParts then Raise ValueError
        else match tokens, nameParts with
             | [], n :: _ => Ok (mkRd (dictDef st) (Some n) (sp st))
             | _, _ => body
             end
      end
  end.
(** the loop (specs.py:220-271) *)
Fixpoint read_lines (st : rdst) (lines : list str) : res rdst :=
  match lines with
  | [] => Ok st
  | l :: lines => bind (read_line st l) (fun st => read_lines st lines)
  end.
(** SpecsLoader.read (specs.py:211-272) on a fresh Specs object: its attributes
    and the number of lines; [k] is unbound when there are no lines *)
Definition read (lines : list str) : res (specs * nat) :=
  bind (read_lines (mkRd false None (mkSpecs [] None)) lines)
       (fun st => match lines with [] => Raise UnboundLocalError | _ => Ok (sp st, length lines) end).
