(** * Model of FManager (ade/de.py:52-208) *)
From Coq Require Import List Bool ZArith.
From Verif Require Import Flt FltMore Py.
Import ListNotations.

(** F as a single value or a (lower, upper) pair.  Simplified: sequences of
    another length than two (an IndexError on use, or ignored elements) are not
    modelled (de.py:84-94) *)
Inductive Fval : Set := FSingle (f : f64) | FPair (lo hi : f64).

(** class attributes de.py:74-79 *)
Definition scaleLowest : f64 := flit 8016407336719483 (-53).   (* 0.89 *)
Definition scaleHighest : f64 := flit 7836263351624663 (-53).  (* 0.87 *)
Definition scaleSingle : f64 := scaleLowest.
(** minHighestVsLowest (de.py:79) *)
Definition three : f64 := fofZ 3.                              (* minHighestVsLowest *)
(** scale**-self.scaleUpPower (de.py:197) for the two scales.  The power is
    computed by the C library; the theorems hold for any values [up0], [up1]
    in a range, these are the correctly rounded ones *)
Definition c_up89 : f64 := flit 4989954305523140 (-52).  (* 0.89**-0.88 *)
Definition c_up87 : f64 := flit 5090762452048121 (-52).  (* 0.87**-0.88 *)

Record fman : Set := mkFman {
  fm_crit : f64;
  fm_F : Fval;
  fm_adaptive : bool;
  fm_origL : f64;
  fm_origH : f64;
  fm_limited : bool
}.

(** properties lowest, highest (de.py:107-112, 125-130) *)
Definition fm_lowest (s : fman) : f64 := match fm_F s with FSingle f => f | FPair lo _ => lo end.
(** highest (de.py:125-130) *)
Definition fm_highest (s : fman) : f64 := match fm_F s with FSingle f => f | FPair _ hi => hi end.

(** criticalF (de.py:83); Np an int *)
Definition criticalF (CR : f64) (Np : Z) : f64 :=
  fsqrt (fdiv (fsub fone (fmul (flit 1 (-1)) CR)) (fofZ Np)).

(** FManager.__init__ (de.py:81-97) *)
Definition fm_init (F : Fval) (CR : f64) (Np : Z) (adaptive : bool) : fman :=
  let crit := criticalF CR Np in
  match F with
  | FPair lo hi =>
    if feqb lo fzero then mkFman crit (FPair crit hi) false crit hi false
    else mkFman crit F adaptive lo hi false
  | FSingle f => mkFman crit F adaptive f f false
  end.

(** setters (de.py:113-123, 131-141) *)
Definition set_lowest (s : fman) (v : f64) : fman :=
  let v := if fltb (fm_origL s) v then fm_origL s else v in
  let F := match fm_F s with FSingle _ => FSingle v | FPair _ hi => FPair v hi end in
  mkFman (fm_crit s) F (fm_adaptive s) (fm_origL s) (fm_origH s) (fm_limited s).
(** setter of highest (de.py:131-141) *)
Definition set_highest (s : fman) (v : f64) : fman :=
  let v := if fltb (fm_origH s) v then fm_origH s else v in
  let F := match fm_F s with FSingle _ => FSingle v | FPair lo _ => FPair lo v end in
  mkFman (fm_crit s) F (fm_adaptive s) (fm_origL s) (fm_origH s) (fm_limited s).
(** self.limited = b (de.py:97, 185, 201) *)
Definition set_limited (s : fman) (b : bool) : fman :=
  mkFman (fm_crit s) (fm_F s) (fm_adaptive s) (fm_origL s) (fm_origH s) b.

(** self.scales (de.py:91, 94) *)
Definition scale0 (s : fman) : f64 := match fm_F s with FSingle _ => scaleSingle | FPair _ _ => scaleLowest end.
(** self.scales[1] (de.py:91, 94) *)
Definition scale1 (s : fman) : f64 := match fm_F s with FSingle _ => scaleSingle | FPair _ _ => scaleHighest end.

(** FManager.down (de.py:158-185) *)
Definition fm_down (s : fman) : fman :=
  if negb (fm_adaptive s) then s else
  let lowest := fm_lowest s in
  let proposed := fmul (scale0 s) lowest in
  if fltb (fm_crit s) proposed then set_lowest s proposed else
  match fm_F s with
  | FPair _ hi =>
    let proposed := fmul (scale1 s) hi in
    if fltb (fmul three lowest) proposed then set_highest s proposed
    else set_limited s true
  | FSingle _ => set_limited s true
  end.

(** min([a, b]) (de.py:197) *)
Definition pymin (a b : f64) : f64 := if fltb b a then b else a.

(** FManager.up (de.py:187-208); [up0], [up1] are scales[k]**-scaleUpPower *)
Definition fm_up (up0 up1 : f64) (s : fman) : fman :=
  if negb (fm_adaptive s) then s else
  let s := set_limited s false in
  let up_low (s : fman) :=
    if fltb (fm_lowest s) (fm_origL s)
    then set_lowest s (pymin (fmul (fm_lowest s) up0) (fm_origL s)) else s in
  match fm_F s with
  | FPair _ hi =>
    if fltb hi (fm_origH s) then set_highest s (pymin (fmul hi up1) (fm_origH s)) else up_low s
  | FSingle _ => up_low s
  end.

(** FManager.get (de.py:143-156); [u] is random.random() inside random.uniform *)
Definition fm_get (u : f64) (s : fman) : f64 :=
  match fm_F s with FSingle f => f | FPair lo hi => funiform lo hi u end.

(** any sequence of calls (de.py:158-208) *)
Inductive fmop : Set := Up | Down.
(** one call (de.py:158-208) *)
Definition fm_step (up0 up1 : f64) (s : fman) (o : fmop) : fman :=
  match o with Up => fm_up up0 up1 s | Down => fm_down s end.
(** a sequence of calls (de.py:158-208) *)
Definition fm_run (up0 up1 : f64) (s : fman) (ops : list fmop) : fman :=
  fold_left (fm_step up0 up1) ops s.
