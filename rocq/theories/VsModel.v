(** * Model of the plots of parameter values against SSE: Analysis.args2names,
    value_vs_SSE and plot (ade/history.py:171-187, 203-240, 361-443).

    Not modelled: what the Plotter does with the data (yampex), and the division
    into figures, which is in AnalModel.v.  The keyword sp of plot is never used
    (plot pops 'kw' instead, history.py:414). *)
From Coq Require Import String List Bool Arith ZArith.
From Verif Require Import Flt Py ParamModel RankModel AnalModel HistModel.
Import ListNotations.
Local Open Scope nat_scope.

(** an element of args: a name or a python int (history.py:171-187) *)
Inductive parg : Type := PName (n : string) | PInt (z : Z).

(** l[slice(start, stop, step)], the positions (python's PySlice_AdjustIndices);
    [start] None means from the beginning (history.py:187, library code) *)
Definition adjust (n z lo hi : Z) : Z := if Z.ltb z 0 then Z.max (z + n) lo else Z.min z hi.
(** slicing (history.py:187, library code) *)
Definition slice_pos (n : nat) (start : option Z) (stop step : Z) : res (list nat) :=
  let n := Z.of_nat n in
  if Z.eqb step 0 then Raise ValueError else
  let lo := if Z.ltb 0 step then 0%Z else (-1)%Z in
  let hi := if Z.ltb 0 step then n else (n - 1)%Z in
  let a := match start with None => lo | Some z => adjust n z lo hi end in
  let b := adjust n stop lo hi in
  let count := if Z.ltb 0 step then Z.div (b - a + step - 1) step else Z.div (a - b - step - 1) (- step) in
  Ok (map (fun i => Z.to_nat (a + Z.of_nat i * step)) (seq 0 (Z.to_nat count))).
(** slice( *args ) of ints (history.py:187): at most three, else TypeError *)
Definition slice_args (n : nat) (zs : list Z) : res (list nat) :=
  match zs with
  | [b] => slice_pos n None b 1
  | [a; b] => slice_pos n (Some a) b 1
  | [a; b; c] => slice_pos n (Some a) b c
  | _ => Raise TypeError
  end.
(** all arguments are ints (history.py:183-187) *)
Fixpoint ints (args : list parg) : option (list Z) :=
  match args with
  | [] => Some []
  | PInt z :: args => option_map (cons z) (ints args)
  | PName _ :: _ => None
  end.
(** args2names (history.py:171-187) *)
Definition args2names (names : list string) (args : list parg) : res (list parg) :=
  match args with
  | [] => Ok (map PName (ssort names))
  | _ =>
    match ints args with
    | None => Ok args
    | Some zs => bind (slice_args (length names) zs) (fun ks => Ok (map (fun k => PName (nth k (ssort names) EmptyString)) ks))
    end
  end.

(** name2k (history.py:189-194) of what args2names gives: an int is no name *)
Definition arg2k (names : list string) (a : parg) : res Z :=
  match a with PName n => name2k names n | PInt _ => Raise ValueError end.
(** a loop over a list, the first exception ending it (history.py:238-239) *)
Fixpoint mapM {A B} (f : A -> res B) (l : list A) : res (list B) :=
  match l with [] => Ok [] | x :: l => bind (f x) (fun y => bind (mapM f l) (fun ys => Ok (y :: ys))) end.
(** X[K,kCol] (history.py:237-239) *)
Definition column (h : hist) (rows : list nat) (k : nat) : list f64 := map (fun r => nth k (X h r) fnan) rows.
(** value_vs_SSE (history.py:203-240); the rows are chosen by [selected] *)
Definition value_vs_SSE (names : list string) (h : hist) (s : sel) (maxRatio : f64) (args : list parg) : res (list (list f64)) :=
  bind (args2names names args) (fun ns =>
  bind (selected h s maxRatio) (fun rows =>
  bind (mapM (arg2k names) ns) (fun ks => Ok (column h rows 0 :: map (fun k => column h rows (Z.to_nat k)) ks)))).

(** one subplot: the title, and each series' x and y values (history.py:398-409) *)
Record subplot : Type := mkSub { title : parg; series : list (list f64 * list f64) }.
(** doSubplots (history.py:398-409) over all of kList *)
Fixpoint do_subplots (names : list parg) (xys : list (list (list f64))) (ks : list nat) : res (list subplot) :=
  match ks with
  | [] => Ok []
  | k :: ks =>
    match nth_error names k with
    | None => Raise IndexError
    | Some n => bind (do_subplots names xys ks) (fun l => Ok (mkSub n (map (fun xy => (nth 0 xy [], nth (S k) xy [])) xys) :: l))
    end
  end.
(** plot (history.py:415-441): maxRatio is 1000 if not given (history.py:226) *)
Definition plot (names : list string) (h : hist) (inPop : bool) (maxRatio : f64) (args : list parg) : res (list subplot) :=
  bind (args2names names args) (fun ns =>
  bind (value_vs_SSE names h SInPop maxRatio ns) (fun xp =>
  bind (if inPop then Ok [] else
        bind (value_vs_SSE names h SNotInPop maxRatio ns) (fun xn =>
        bind (value_vs_SSE names h SNeverInPop maxRatio ns) (fun xr => Ok [xn; xr]))) (fun more =>
  do_subplots ns (xp :: more) (seq 0 (length xp - 1))))).
