(** * Model of the data of the examples: Data.load and TimeData.parseValues
    (ade/examples/data.py:79-170), TemperatureData.setWeights
    (ade/examples/thermistor.py:80-104).

    Not modelled: downloading, decompressing and csv syntax; [rows] is what csv.reader
    gives. *)
From Coq Require Import String Ascii List Bool Arith ZArith.
From Verif Require Import Flt Py VsModel.
Import ListNotations.
Local Open Scope nat_scope.

(** row[0].startswith('#') (data.py:101) *)
Definition comment (row : list string) : res bool :=
  match row with [] => Raise IndexError | s :: _ => Ok (match s with String c _ => Ascii.eqb c "#"%char | EmptyString => false end) end.
(** the rows read (data.py:97-106); [include] is includeRow *)
Fixpoint load_rows (include : list string -> bool) (rows : list (list string)) : res (list (list string)) :=
  match rows with
  | [] => Ok []
  | r :: rows => bind (comment r) (fun c => bind (load_rows include rows) (fun l => Ok (if c then l else if include r then r :: l else l)))
  end.
(** load (data.py:79-106).  On python 3 the file is opened for bytes, which csv.reader
    refuses (csv.Error, here ValueError) once there is a line *)
Definition load (py3 : bool) include rows : res (list (list string)) :=
  match rows with [] => Ok [] | _ => if py3 then Raise ValueError else load_rows include rows end.

(** sorting by the first value, stably; python's order for NaN is not modelled (data.py:148) *)
Definition time (v : list f64) : f64 := nth 0 v fnan.
(** one insertion of the sort (data.py:148) *)
Fixpoint tins (x : list f64) (l : list (list f64)) : list (list f64) :=
  match l with [] => [x] | h :: t => if fltb (time h) (time x) then h :: tins x t else x :: l end.
(** value_lists.sort(None, key) (data.py:148) *)
Definition tsort (l : list (list f64)) : list (list f64) := fold_right tins [] l.
(** whether k is in a range (data.py:155) *)
Definition in_range (k : Z) (r : Z * option Z) : bool :=
  (fst r <=? k)%Z && match snd r with None => true | Some k1 => (k <? k1)%Z end.
(** whether addList is called for place k (data.py:153-158) *)
Definition picked (ranges : list (Z * option Z)) (k : Z) : bool :=
  match ranges with [] => true | _ => existsb (in_range k) ranges end.
(** the loop (data.py:152-158) *)
Fixpoint pick (ranges : list (Z * option Z)) (t0 : f64) (k : Z) (l : list (list f64)) : list (f64 * list f64) :=
  match l with
  | [] => []
  | v :: l => (if picked ranges k then [(fsub (time v) t0, tl v)] else []) ++ pick ranges t0 (k + 1) l
  end.
(** parseValues (data.py:138-162): t and the rows of X.  value_lists.sort(None, key) is
    python 2; on python 3 it is a TypeError.  [tofloat] is float(text) *)
Definition parseValues (py3 : bool) (tofloat : string -> res f64) ranges (rows : list (list string)) : res (list f64 * list (list f64)) :=
  bind (mapM (mapM tofloat) rows) (fun vs =>
  if py3 then Raise TypeError else
  if existsb (fun v => match v with [] => true | _ => false end) vs then Raise IndexError else
  match tsort vs with
  | [] => Raise IndexError
  | v :: l => let p := pick ranges (time v) 0 (v :: l) in Ok (map fst p, map snd p)
  end).

(** ** Weights of temperature readings *)
(** 0.05 / 10, 4.0 and -5.0 (thermistor.py:84, 101, 104) *)
Definition halfWeight : f64 := fdiv (flit 7205759403792794 (-57)) (fofZ 10).
(** signal.lfilter([1, 1], [2], x): (x[k] + x[k-1])/2, as a[0] normalises the
    coefficients to 0.5 (thermistor.py:93) *)
Definition half : f64 := flit 1 (-1).
(** lfilter; [prev] is half the value before (thermistor.py:93) *)
Fixpoint lfilter (prev : f64) (x : list f64) : list f64 :=
  match x with [] => [] | v :: x => fadd (fmul half v) prev :: lfilter (fmul half v) x end.
(** np.diff (thermistor.py:94) *)
Fixpoint diff (x : list f64) : list f64 :=
  match x with a :: ((b :: _) as r) => fsub b a :: diff r | _ => [] end.
(** the weight of a drift; [pow3] is np.power(., 3) (thermistor.py:95-97) *)
Definition drift_weight (pow3 : f64 -> f64) (d : f64) : f64 := pow3 (fdiv halfWeight (fadd (fabs d) halfWeight)).
(** the weight of a cold reading (thermistor.py:99-104) *)
Definition cold (T w : f64) : f64 :=
  let w := if fltb T (fofZ 4) then fmul (fofZ 10) w else w in
  if fltb T (fofZ (-5)) then fmul (fofZ 3) w else w.
(** setWeights (thermistor.py:87-104) *)
Definition setWeights (pow3 : f64 -> f64) (T t : list f64) : list f64 :=
  map2 cold T (fzero :: map (drift_weight pow3) (map2 fdiv (diff (lfilter fzero T)) (diff t))).
