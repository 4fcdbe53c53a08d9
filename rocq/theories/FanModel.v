(** * Model of the ventilation fan controller, doc/ade-thermistor-usage.py.

    The event loop of Runner.run reads the sensors, filters the voltages, averages the
    temperatures, decides whether the fan should be on and switches it.  An event is one
    round of the loop: what the sensors say, and the time datetime.now() gives in it.

    Simplified: times are integers, in microseconds, so that
    td.total_seconds() < 300 is a comparison of integers.  np.exp and np.log are oracles.
    The sensors' and the GPIO's libraries do not raise.  The name datetime is taken to be
    the module, as the star imports of lines 9-10 make it; after the import of line 5
    alone every use of it would raise AttributeError. *)
From Coq Require Import List ZArith Bool.
From Verif Require Import Flt Py.
Import ListNotations.
Local Open Scope Z_scope.

(** ** Constants *)
(** T0, TEMPDIFF_T0 (ade-thermistor-usage.py:21-23) *)
Definition T0 : f64 := fofZ 20.
(** TEMPDIFF_T0 = 3.5 (ade-thermistor-usage.py:23) *)
Definition TEMPDIFF_T0 : f64 := flit 7 (-1).
(** TEMPDIFF_H = 1.0 (ade-thermistor-usage.py:25) *)
Definition TEMPDIFF_H : f64 := fofZ 1.
(** INSIDE_MIN (ade-thermistor-usage.py:27) *)
Definition INSIDE_MIN : f64 := fofZ 10.
(** INSIDE_MAX (ade-thermistor-usage.py:30) *)
Definition INSIDE_MAX : f64 := fofZ 45.
(** TRANSITION_TIME, in microseconds (ade-thermistor-usage.py:39) *)
Definition TRANSITION_TIME : Z := 5 * 60 * 1000000.
(** N_READINGS = 60*10/2.0 (ade-thermistor-usage.py:42-43) *)
Definition N_READINGS : nat := 3 * 100.

(** ** The filter *)
Section Filter.
(** numbers; the code has floats, the statements about exact arithmetic have reals *)
Variables (T : Type) (add mul : T -> T -> T) (zero : T).
(** one step, self.y = np.array(x) + self.a*self.y, of one of the two channels
    (ade-thermistor-usage.py:77) *)
Definition iir_step (a x y : T) : T := add x (mul a y).
(** several steps with the same input (ade-thermistor-usage.py:75-76) *)
Fixpoint settle (n : nat) (a x y : T) : T := match n with O => y | S n => settle n a x (iir_step a x y) end.
(** __call__: the new y (ade-thermistor-usage.py:72-77); settling on the first sample *)
Definition iir_next (n : nat) (a x : T) (y : option T) : T :=
  iir_step a x (match y with None => settle n a x zero | Some y => y end).
End Filter.
(** N_settle (ade-thermistor-usage.py:60) *)
Definition N_settle : nat := 100 * 100.

Section Fan.
(** self.a = np.exp(-ts / tc), and np.log on float64 *)
Variable a : f64.
Variable nplog : f64 -> f64.
(** what the filter returns, (1.0-self.a) * self.y (ade-thermistor-usage.py:78) *)
Definition iir_out (y : f64) : f64 := fmul (fsub fone a) y.

(** ** Temperatures *)
(** a0, a1, Rs of a sensor, Vp (ade-thermistor-usage.py:88-91) *)
Definition coeffs (inside : bool) : f64 * f64 * f64 :=
  if inside then (flit 6681072032805621 (-54), flit 5379803082373097 (-48), flit 7940296503016921 (-49))
  else (flit 417104257188639 (-50), flit 702002110353585 (-45), flit 3904649024427891 (-48)).
(** Vp (ade-thermistor-usage.py:91) *)
Definition Vp : f64 := flit 3302123689281061 (-47).
(** v2t of one voltage (ade-thermistor-usage.py:144) *)
Definition v2t (inside : bool) (v : f64) : f64 :=
  let '(a0, a1, Rs) := coeffs inside in
  fmul a1 (nplog (fdiv (fmul Rs v) (fmul a0 (fsub Vp v)))).
(** the average (ade-thermistor-usage.py:168-171) *)
Definition mean (l : list f64) : f64 := fdiv (fold_left fadd l fzero) (fofZ (Z.of_nat (length l))).

(** ** Decision *)
(** m, b (ade-thermistor-usage.py:204-205) *)
Definition td_m : f64 := fdiv (fopp TEMPDIFF_T0) (fofZ (45 - 20)).
(** b = TEMPDIFF_T0 - m*T0 (ade-thermistor-usage.py:205) *)
Definition td_b : f64 := fsub TEMPDIFF_T0 (fmul td_m T0).
(** tempDiff (ade-thermistor-usage.py:207-208): python's max of a list with 0 first *)
Definition tempDiff (inside : f64) : f64 :=
  let x := fadd (fmul td_m inside) td_b in if fltb fzero x then x else fzero.
(** decideFan (ade-thermistor-usage.py:215-223); [on] is truth of fanState[1] *)
Definition decideFan (on : bool) (outside inside : f64) : bool :=
  let inside := if on then fadd inside TEMPDIFF_H else inside in
  if fltb inside INSIDE_MIN then false
  else fltb (tempDiff inside) (fsub inside outside).

(** ** The runner *)
(** [since], [state]: fanState.  [ys]: the filter's y for outside and inside, None at
    first.  [outs], [ins]: the two columns of readings.  For the statements: the writes
    to the GPIO with their times, and the rows of the log file, oldest first
    (ade-thermistor-usage.py:94-106) *)
Record fan : Type := mkFan {
  since : Z; state : option bool;
  ys : option (f64 * f64); outs : list f64; ins : list f64;
  writes : list (Z * bool); rows : list (Z * f64 * f64 * bool) }.
(** __init__ at time t (ade-thermistor-usage.py:94-106) *)
Definition fan_init (t : Z) : fan := mkFan t None None [] [] [] [].
(** setFan (ade-thermistor-usage.py:182-192): the new runner and the state returned.
    Before the first write the state is None, which equals neither bool *)
Definition setFan (t : Z) (on : bool) (s : fan) : fan * bool :=
  match state s with
  | Some is_on =>
    if Bool.eqb on is_on then (s, on)
    else if t - since s <? TRANSITION_TIME then (s, is_on)
    else (mkFan t (Some on) (ys s) (outs s) (ins s) (writes s ++ [(t, on)]) (rows s), on)
  | None => (mkFan t (Some on) (ys s) (outs s) (ins s) (writes s ++ [(t, on)]) (rows s), on)
  end.
(** getTemps (ade-thermistor-usage.py:160-172) *)
Definition getTemps (V : option f64 * option f64) (s : fan) : fan * option (f64 * f64) :=
  match V with
  | (Some v0, Some v1) =>
    let y0 := iir_next f64 fadd fmul fzero N_settle a v0 (option_map fst (ys s)) in
    let y1 := iir_next f64 fadd fmul fzero N_settle a v1 (option_map snd (ys s)) in
    let os := outs s ++ [v2t false (iir_out y0)] in
    let is := ins s ++ [v2t true (iir_out y1)] in
    if Nat.ltb (length os) N_READINGS
    then (mkFan (since s) (state s) (Some (y0, y1)) os is (writes s) (rows s), None)
    else (mkFan (since s) (state s) (Some (y0, y1)) [] [] (writes s) (rows s), Some (mean os, mean is))
  | _ => (s, None)
  end.
(** one round of the loop (ade-thermistor-usage.py:240-255): whether both sensors are
    online, their values, and the time *)
Record tick : Type := mkTick { online : bool; volts : option f64 * option f64; now : Z }.
(** one round of the loop (ade-thermistor-usage.py:245-255) *)
Definition one_round (s : fan) (e : tick) : fan :=
  if online e then
    match getTemps (volts e) s with
    | (s, None) => s
    | (s, Some (o, i)) =>
      let on := decideFan (match state s with Some b => b | None => false end) o i in
      let (s, is_on) := setFan (now e) on s in
      mkFan (since s) (state s) (ys s) (outs s) (ins s) (writes s) (rows s ++ [(now e, o, i, is_on)])
    end
  else fst (setFan (now e) false s).
(** run (ade-thermistor-usage.py:237-255): made at time t, started at time t', the rounds
    up to the signal that ends the loop.  Nothing is done to the fan then *)
Definition run (t t' : Z) (es : list tick) : fan := fold_left one_round es (fst (setFan t' false (fan_init t))).
End Fan.
