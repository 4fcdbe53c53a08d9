(** * Model of the data of scatter plots and of the size of figures: Analysis.lineFit,
    plotXY, _widthHeight, filePath and makePlotter (ade/history.py:92-101, 242-256,
    274-359, 448-493).

    Not modelled: what yampex.Plotter and matplotlib do with it. *)
From Coq Require Import String Ascii List Bool Arith ZArith.
From Verif Require Import Flt Py RankModel AnalModel VsModel.
Import ListNotations.
Local Open Scope nat_scope.

(** ** The line fit *)
(** np.min of an array (history.py:253, 471) *)
Definition fmin2 (a b : f64) : f64 := if isnan a then a else if isnan b then b else if fltb b a then b else a.
(** SSE.min(), X.min() (history.py:253, 471); ValueError if empty *)
Definition np_min (l : list f64) : res f64 :=
  match l with [] => Raise ValueError | x :: l => Ok (fold_left fmin2 l x) end.
(** X.max() (history.py:471); ValueError if empty *)
Definition np_max (l : list f64) : res f64 :=
  match l with [] => Raise ValueError | x :: l => Ok (fold_left (fun a b => if isnan a then a else if isnan b then b else if fltb a b then b else a) l x) end.
(** the weights W of lineFit (history.py:252-254).  X has binary32 numbers, so the
    operations round to binary32: the binary64 result rounded again is the same
    (53 >= 2*24+2) *)
Definition weight (mn s : f64) : f64 := rnd32 (fdiv (rnd32 (fmul (fofZ 2) mn)) (rnd32 (fadd s mn))).
(** SSE.min() and the weights (history.py:253-254) *)
Definition weights (sse : list f64) : res (list f64) := bind (np_min sse) (fun mn => Ok (map (weight mn) sse)).

(** X[K,k] for an index k of a column, which may be negative (history.py:252, 255, 470, 480) *)
Definition col (X : nat -> list f64) (K : list nat) (k : Z) : res (list f64) := mapM (fun r => py_index (X r) k) K.
(** lineFit (history.py:242-256); [polyfit x y w] gives the intercept and the slope of
    the fit of degree 1, or an exception (an oracle) *)
Definition lineFit (polyfit : list f64 -> list f64 -> list f64 -> res (f64 * f64)) (X : nat -> list f64) (k1 k2 : Z) (K : list nat) : res (f64 * f64) :=
  bind (col X K 0) (fun sse =>
  bind (weights sse) (fun W =>
  bind (col X K k1) (fun x => bind (col X K k2) (fun y =>
  bind (polyfit x y W) (fun bm => Ok (snd bm, fst bm)))))).

(** ** plotXY *)
(** fmms (history.py:92-99): fraction and marker size.  The markers are left out *)
Definition fmms : list (f64 * f64) :=
  [ (flit 7205759403792794 (-57), fofZ 3);              (* 0.05 *)
    (flit 7205759403792794 (-56), fofZ 2);              (* 0.10 *)
    (flit 7205759403792794 (-55), flit 3 (-1));         (* 0.20, 1.5 *)
    (flit 1 (-1), fofZ 1);                              (* 0.50 *)
    (flit 6305039478318694 (-53), flit 1 (-1));         (* 0.70 *)
    (flit 4548635623644201 (-52), fzero) ].             (* 1.01, 0.0 *)
(** what is drawn besides the line: size, x and y values, for each line of fmms
    (history.py:480-481) *)
Record points : Type := mkPoints { psize : f64; px : list f64; py : list f64 }.
(** the loop over fmms (history.py:473-482) *)
Fixpoint marks (select : f64 -> f64 -> res (list nat)) (X : nat -> list f64) (k1 k2 : Z) (f1 : f64) (fs : list (f64 * f64)) : res (list points) :=
  match fs with
  | [] => Ok []
  | (f2, ms) :: fs =>
    bind (if feqb ms fzero then Ok [] else
          bind (select f1 f2) (fun K => bind (col X K k1) (fun x => bind (col X K k2) (fun y => Ok [mkPoints ms x y])))) (fun p =>
    bind (marks select X k1 k2 f2 fs) (fun l => Ok (p ++ l)))
  end.
(** the result of plotXY: labels and line, together with what is drawn: the ends of the
    line and the points (history.py:465-483) *)
Record xyplot : Type := mkXY { xlabel : string; ylabel : string; slope : f64; icept : f64; line_x : f64 * f64; drawn : list points }.
(** a parameter given by name or as an index of a column (history.py:485-486) *)
Definition xyk (names : list string) (p : parg) : res Z := match p with PInt z => Ok z | PName n => name2k names n end.
(** plotXY (history.py:448-493).  [rd] as in AnalModel.Kf12.  Simplified: of the line only
    the x values of its ends are kept, not m*X+b *)
Definition plotXY (rd : f64 -> f64) polyfit (names : list string) (X : nat -> list f64) (K : list nat) (p1 p2 : parg) (useFraction : bool) : res xyplot :=
  bind (xyk names p1) (fun k1 => bind (xyk names p2) (fun k2 =>
  bind (k2name names k1) (fun xName => bind (k2name names k2) (fun yName =>
  bind (Kp12 K fzero (flit 1 (-1))) (fun Kh =>
  bind (lineFit polyfit X k1 k2 Kh) (fun mb =>
  bind (col X Kh k1) (fun x => bind (np_min x) (fun x0 => bind (np_max x) (fun x1 =>
  bind (marks (fun f1 f2 => if useFraction then Kf12 rd (fun r => nth 0 (X r) fnan) K f1 f2 else Kp12 K f1 f2) X k1 k2 fzero fmms) (fun pts =>
  Ok (mkXY xName yName (fst mb) (snd mb) (x0, x1) pts))))))))))).

(** ** The size of figures *)
Section Size.
(** float(text) (an oracle), Plotter.DPI *)
Variable tofloat : string -> res f64.
Variable DPI : f64.
(** inches (history.py:280-281) *)
Definition inches (x : string) : res f64 := bind (tofloat x) (fun v => Ok (fdiv v DPI)).
(** str.split('x') (history.py:286) *)
Fixpoint split_x (s : string) : list string :=
  match s with
  | EmptyString => [EmptyString]
  | String c r =>
    if Ascii.eqb c "x"%char then EmptyString :: split_x r
    else match split_x r with h :: t => String c h :: t | [] => [String c EmptyString] end
  end.
(** 'x' in dims (history.py:285) *)
Fixpoint has_x (s : string) : bool :=
  match s with EmptyString => false | String c r => Ascii.eqb c "x"%char || has_x r end.
(** defaultWidth (history.py:101) *)
Definition defaultWidth : f64 := fofZ 12.
(** _widthHeight (history.py:274-289); [dims] None or a string *)
Definition widthHeight (dims : option string) : res (f64 * option f64) :=
  match dims with
  | None | Some EmptyString => Ok (defaultWidth, None)
  | Some d =>
    if has_x d then
      bind (mapM inches (split_x d)) (fun l => match l with [w; h] => Ok (w, Some h) | _ => Raise ValueError end)
    else bind (inches d) (fun w => Ok (w, None))
  end.
(** fileSpec with width and height (history.py:325-327) *)
Record fspec2 : Type := mkSpec2 { sp : fspec; sw : f64; sh : option f64 }.
(** filePath called with a path (history.py:314, 325-327) *)
Definition set_path2 (base : string) (dims : option string) : res fspec2 :=
  bind (widthHeight dims) (fun wh => Ok (mkSpec2 (set_path base) (fst wh) (snd wh))).
(** filePath() (history.py:314-324) *)
Definition next_path2 (s : option fspec2) : option fspec2 * option (string * f64 * option f64) :=
  match s with
  | None => (None, None)
  | Some s => let (s', p) := next_path (sp s) in (Some (mkSpec2 s' (sw s) (sh s)), Some (p, sw s, sh s))
  end.
(** min([0.7, q]): the first of the smallest (0.7 (history.py:352)) *)
Definition f07 : f64 := flit 6305039478318694 (-53).
(** min of two (history.py:352) *)
Definition py_min2 (a b : f64) : f64 := if fltb b a then b else a.
(** makePlotter (history.py:329-359): the keywords filePath, width and height given to
    the Plotter; [Nr], [Nc] from Plotter.parseArgs; [width], [height], [dims] the
    keywords supplied *)
Definition truthy (x : option f64) : option f64 := match x with Some v => if feqb v fzero then None else Some v | None => None end.
(** the method (history.py:343-357) *)
Definition makePlotter (s : option fspec2) (width height : option f64) (dims : option string) (Nr Nc : nat) :
  res (option fspec2 * (option string * option f64 * option f64)) :=
  match next_path2 s with
  | (s', Some (p, w, h)) =>
    bind (match h with
          | Some h => Ok h
          | None => if Nat.eqb Nc 0 then Raise ZeroDivisionError
                    else Ok (fmul w (py_min2 f07 (fdiv (fofZ (Z.of_nat Nr)) (fofZ (Z.of_nat Nc)))))
          end) (fun h => Ok (s', (Some p, truthy (Some w), truthy (Some h))))
  | (s', None) =>
    match dims with
    | None | Some EmptyString => Ok (s', (None, truthy width, truthy height))
    | Some d => bind (widthHeight (Some d)) (fun wh => Ok (s', (None, truthy (Some (fst wh)), truthy (snd wh))))
    end
  end.
End Size.
