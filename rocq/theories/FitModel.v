(** * The evaluators of the thermistor and battery examples, with their data
    (ade/examples/thermistor.py:237-287, voc.py:213-219).

    np.log, np.exp, and powers with exponents 3 and 4 are functions on floats;
    numpy squares a number by multiplying it with itself.  np.sum adds in any
    order ([order], as in PairModel.v).  The values are as many as the
    parameters, and each reading has seven columns. *)
From Coq Require Import List Bool Arith ZArith.
From Verif Require Import Flt Py ExamModel PairModel.
Import ListNotations.
Local Open Scope nat_scope.

Section Fit.
Variables nplog npexp pow3 pow4 : f64 -> f64.
Variable order : nat -> tree.

(** T_kelvin_offset (thermistor.py:172) *)
Definition T_kelvin_offset : f64 := flit 4805305618032230 (-44).
(** curve at one resistance (thermistor.py:237-255): [args] are the four common
    parameters, then the thermistor's own four *)
Definition th_curve (R : f64) (args : list f64) : f64 :=
  let lnR := nplog R in
  let p k := fmul (nth k args fzero) (nth (k + 4) args fzero) in
  let T_kelvin := fdiv fone (fadd (fadd (fadd (p 0) (fmul (p 1) lnR)) (fmul (p 2) (fmul lnR lnR))) (fmul (p 3) (pow3 lnR))) in
  fsub T_kelvin T_kelvin_offset.
(** a reading: its weight, and the temperature and six resistances (thermistor.py:199-200, 265) *)
Record reading : Type := mkReading { weight : f64; cols : list f64 }.
(** X[:,k] of one reading (thermistor.py:265, 267) *)
Definition col (k : nat) (x : reading) : f64 := nth k (cols x) fzero.
(** weights * np.square(T_curve - T), summed (thermistor.py:267-271) *)
Definition th_part (data : list reading) (k : nat) (args : list f64) : f64 :=
  tsum (order (length data)) (map (fun x => let d := fsub (th_curve (col k x) args) (col 0 x) in fmul (weight x) (fmul d d)) data).
(** the fourth power of the drift of a prefix (thermistor.py:278-283) *)
Definition th_drift4 (values : list f64) (prefix : String.string) : f64 :=
  let K := drift_indices prefix in pow4 (tsum (order (length K)) (map (fun i => nplog (nth i values fzero)) K)).
(** __call__ (thermistor.py:256-287).  All six parts are given to [th_eval], which
    uses those that the code computes *)
Definition th_call (data : list reading) (values : list f64) (xSSE : option f64) : res f64 :=
  bind (collect (map (values2args values) (seq 1 6))) (fun args =>
  Ok (th_eval xSSE (map (fun ka => th_part data (fst ka) (snd ka)) (combine (seq 1 6) args)) (map (th_drift4 values) th_lower))).

(** voc.py: a reading's time and voltage (voc.py:185-187, 217-218); __call__ (voc.py:213-219) *)
Definition voc_call (data : list (f64 * f64)) (values : list f64) : res f64 :=
  bind (collect (map (fun tv => bind (voc_curve npexp (fst tv) values) (fun v => let d := fsub v (snd tv) in Ok (fmul d d))) data)) (fun l =>
  Ok (fmul (fofZ 100) (tsum (order (length l)) l))).
End Fit.
