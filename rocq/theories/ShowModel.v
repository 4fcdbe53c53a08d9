(** * The reports of the example programs: Reporter.__call__ of
    ade/examples/thermistor.py:135-161 and ade/examples/voc.py:107-146.

    Text is what str.format gives: "{:g}" and "{:.2f}" of a number, "{:d}" of the
    counter and pm.prettyValues are arguments.  Drawing itself (yampex, matplotlib)
    does not fail; what is handed to it is recorded. *)
From Coq Require Import List Bool Arith ZArith Ascii String.
From Verif Require Import Flt Py ExamModel PlotModel FitModel.
Import ListNotations.
Local Open Scope nat_scope.

(** np.linspace(a, b, n) for n of at least two (thermistor.py:155, voc.py:133-134):
    arange(n) times the step, or by way of the difference if the step is zero, plus
    a; then the last number is made b *)
Definition linspace (a b : f64) (n : nat) : list f64 :=
  let div := fofZ (Z.of_nat (n - 1)) in
  let delta := fsub b a in
  let step := fdiv delta div in
  map (fun k => let y := fofZ (Z.of_nat k) in
    fadd (if feqb step fzero then fmul (fdiv y div) delta else fmul y step) a) (seq 0 (n - 1)) ++ [b].
(** N_curve_plot (thermistor.py:121, voc.py:92) *)
Definition N_curve_plot : nat := 200.

Section Show.
Variables nplog npexp pow3 : f64 -> f64.
Variable g f2 : f64 -> string.
Variable pretty : list f64 -> string -> string.
Variable dec : nat -> string.

(** SSE_info (thermistor.py:139, voc.py:115) and the text given to msg
    (thermistor.py:140, voc.py:120) *)
Definition info (SSE : f64) : string := ("SSE=" ++ g SSE)%string.
(** the message (thermistor.py:140, voc.py:120) *)
Definition message (values : list f64) (SSE : f64) : string := pretty values (info SSE ++ ", with")%string.

(** ** thermistor.py *)
(** one of the six subplots *)
Record plot : Type := mkPlot { pl_title : string; pl_xlabel : string; pl_points : list (f64 * f64); pl_curve : list (f64 * f64) }.
(** what is shown *)
Record page : Type := mkPage { pg_title : string; pg_plots : list plot }.
(** a pass of the loop (thermistor.py:147-157); the number has one digit *)
Definition th_plot (data : list reading) (values : list f64) (k : nat) : res plot :=
  let R := map (col k) data in
  bind (np_min R) (fun mn => bind (np_max R) (fun mx =>
  let xs := linspace (fsub mn (fofZ 10)) (fadd mx (fofZ 10)) N_curve_plot in
  bind (values2args values k) (fun args =>
  Ok (mkPlot (prefix2name "Thermistor #" k) (prefix2name "R" k) (map (fun x => (col k x, col 0 x)) data)
    (map (fun x => (x, th_curve nplog pow3 x args)) xs))))).
(** __call__ (thermistor.py:135-161): what it prints, and what it shows or raises *)
Definition th_report (data : list reading) (values : list f64) (counter : nat) (SSE : f64) : list string * res page :=
  ([message values SSE],
   bind (collect (map (th_plot data values) (seq 1 6))) (fun plots =>
   Ok (mkPage (String.concat ", " ["Temp vs Voltage"; info SSE; "k=" ++ dec counter]%string) plots))).

(** ** voc.py *)
(** what is shown: the line at values[-1], the text box, the observations with the
    modelled curve, and the residuals *)
Record vpage : Type := mkVpage { v_title : string; v_zero : f64; v_box : string; v_points : list (f64 * f64); v_curve : list (f64 * f64); v_resid : list (f64 * f64) }.
(** the curve at several times (voc.py:135, 138) *)
Definition voc_points (values ts : list f64) : res (list (f64 * f64)) :=
  collect (map (fun t => bind (voc_curve npexp t values) (fun v => Ok (t, v))) ts).
(** __call__ (voc.py:107-146).  extrapolationMultiple is 3 (voc.py:93).  Where the
    largest residual after the first two is, and its percentage, are computed but
    not used: np.argmax raises ValueError if there is none (voc.py:141) *)
Definition voc_report (data : list (f64 * f64)) (values : list f64) (counter : nat) (SSE : f64) : list string * res vpage :=
  let title := String.concat ", " ["Voltage vs Time (sec)"; info SSE; "k=" ++ dec counter]%string in
  let t := map fst data in
  ([message values SSE],
   match rev values with
   | [] => Raise IndexError
   | voc :: _ =>
     bind (np_min t) (fun mn => bind (np_max t) (fun mx =>
     bind (voc_points values (linspace mn (fmul (fofZ 3) mx) N_curve_plot)) (fun cv =>
     bind (collect (map (fun tv => bind (voc_curve npexp (fst tv) values) (fun v => Ok (fsub v (snd tv)))) data)) (fun rs =>
     match skipn 2 rs with
     | [] => Raise ValueError
     | _ => Ok (mkVpage title voc ("Estimated VOC: " ++ f2 voc ++ " V")%string data cv (combine t rs))
     end))))
   end).
End Show.
