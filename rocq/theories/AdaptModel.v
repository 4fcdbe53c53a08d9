(** * A whole run with its adaptation: the generation loop of LoopModel.v, whose
    challengers are made with the FManager as it is (ade/de.py:532) and whose
    improvement ratios come from the reports of its own challenges
    (ade/de.py:553, ade/population.py:1023-1027, ade/report.py:409-466).

    LoopModel.v makes challengers by a function that knows nothing of the
    FManager, and takes the ratios of a generation as given.  Not in this model:
    callbacks that complain about an individual (report.py:171-187), which would
    change individuals in place. *)
From Coq Require Import List Bool Arith ZArith.
From Verif Require Import Flt Py FManModel RunModel ChalModel LoopModel.
Import ListNotations.

Section Adapt.
Context {I : Type}.
(** the challenger of challenge [c], made with the FManager as it is then (de.py:532-536) *)
Variable mkF : fman -> nat -> I -> I -> I -> I -> mkres I.
Variable ev : nat -> I -> I -> option I.
Variable better : I -> I -> bool.
Variable histcrash : nat -> bool.
Variable xSSE : bool.
(** the ratio that msgRatio returns for a challenger [r] and its target [it]
    (report.py:270-350, called at 458): an integer, or None *)
Variable rir : I -> I -> option Z.
Variable npsin : f64 -> f64.
Variables up0 up1 : f64.
Variable o : opts.

(** whether a reported individual is better than the best reported so far, or the
    first at all (report.py:460) *)
Definition new_best (b : option I) (r : I) : bool := match b with None => true | Some b => better r b end.
(** the calls of Population.replacement with a ratio that the report of a
    challenger [r] against [it] leads to (report.py:458-465, population.py:1025-1026):
    the bonus of a new best comes first *)
Definition ratios (b : option I) (r it : I) : list Z :=
  (if new_best b r then [1%Z] else []) ++ match rir r it with Some z => [z] | None => [] end.

(** [al]: the run; [abest]: the reporter's iBest (report.py:243-246); [acalls]: the
    ratios passed to replacement since the last inquiry (population.py:888-994);
    [apend]: challengers that lost and are being written to the history, each
    with the target it will be reported against (de.py:547-553) *)
Record ast : Type := mkA { al : lst I; abest : option I; acalls : list Z; apend : list (nat * (I * I)) }.

(** self.p.report(iChallenger, iTarget) (de.py:553, population.py:1018-1027):
    [pr]: the population's running is not False *)
Definition report (pr : bool) (r it : I) (s : ast) : ast :=
  if pr then mkA (al s) (if new_best (abest s) r then Some r else abest s) (acalls s ++ ratios (abest s) r it) (apend s)
  else s.

(** a step of the run, with what it reports.  [mk]: how challengers are made
    (de.py:542-553, 606-615) *)
Definition astepm (mk : nat -> I -> I -> I -> I -> mkres I) (s : ast) (e : levent) : option ast :=
  let c := lch (al s) in
  match e with
  | LJoin _ u f =>
    (* the inquiry at the end of the generation counts what was reported (615) *)
    match lstep mk ev better histcrash xSSE npsin up0 up1 o (al s) (LJoin (acalls s) u f) with
    | Some l => Some (mkA l (abest s) [] [])
    | None => None
    end
  | _ =>
    match lstep mk ev better histcrash xSSE npsin up0 up1 o (al s) e with
    | None => None
    | Some l =>
      let s' := mkA l (abest s) (acalls s) (apend s) in
      Some match e with
      | LC (EEvalDone k) =>
        match nth_error (cs c) k with
        | Some (mkChal q (PEval it ch)) =>
          match ev k it ch with
          | Some r =>
            if ChalModel.run c then
              if better r it || xSSE then report (prun c) r it s'
              else mkA l (abest s) (acalls s) (apend s ++ [(k, (r, it))])
            else s'
          | None => s'
          end
        | _ => s'
        end
      | LC (EHistDone k) =>
        let s' := mkA l (abest s) (acalls s) (filter (fun x => negb (fst x =? k)) (apend s)) in
        if histcrash k then s' else
        match find (fun x => fst x =? k) (apend s) with
        | Some (_, (r, it)) => report (prun c) r it s'
        | None => s'
        end
      | _ => s'
      end
    end
  end.
(** the challengers are made with the FManager of the run (de.py:532) *)
Definition astep (s : ast) (e : levent) : option ast := astepm (mkF (r_fm (lrs (al s)))) s e.
(** any sequence of events (de.py:565-638) *)
Fixpoint aexec (s : ast) (es : list levent) : option ast :=
  match es with
  | [] => Some s
  | e :: es => match astep s e with Some s' => aexec s' es | None => None end
  end.
(** the same with a fixed way of making challengers (de.py:565-638) *)
Fixpoint aexecm mk (s : ast) (es : list levent) : option ast :=
  match es with
  | [] => Some s
  | e :: es => match astepm mk s e with Some s' => aexecm mk s' es | None => None end
  end.
(** a run on a set-up population whose best reported individual is [b] (de.py:670-683) *)
Definition ainit (p : list I) (fm : fman) (sc : score) (b : option I) : ast := mkA (linit o p fm sc) b [] [].
End Adapt.
Arguments ast : clear implicits.
Arguments mkA {I}.
