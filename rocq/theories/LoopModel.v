(** * The generation loop driving the challenges: DifferentialEvolution._run
    (ade/de.py:565-638) on top of the challenges of ChalModel.v (de.py:464-563)
    and of the end of a generation in RunModel.v.

    ChalModel.v lets anybody start challenges at any time and RunModel.v takes
    the outcome of a generation's challenges as given.  Here the loop starts the
    challenges itself and finds out what came of them.

    The base index kb (de.py:591-593) may be any index that, with the target and
    the two others, makes four different ones (C12); challenge() cannot raise
    before it waits for its locks, as a population has at least 20 members
    (population.py:391, 423). *)
From Coq Require Import List Bool Arith ZArith.
From Verif Require Import Flt Py FManModel RunModel ChalModel.
Import ListNotations.

Section Loop.
Context {I : Type}.
Variable mk : nat -> I -> I -> I -> I -> mkres I.
Variable ev : nat -> I -> I -> option I.
Variable better : I -> I -> bool.
Variable histcrash : nat -> bool.
Variable xSSE : bool.
(** np.sin, the two constants of FManager.up and the options of the run *)
Variable npsin : f64 -> f64.
Variables up0 up1 : f64.
Variable o : opts.

(** where _run is (de.py:565-638) *)
Inductive phase : Set :=
| LTop                      (** de.py:586: waiting for reports *)
| LStart (first k : nat)    (** 590: about to start the challenge of target [k]; [first]: number of this generation's first challenge *)
| LWait (first : nat)       (** 606: waiting for dChallenges *)
| LRep (r : reason)         (** 634: left the loop while running, waiting for the final reports *)
| LEnd (r : reason).        (** 635-638, or an exception *)

(** [lch]: population, locks and challenges; [lkg]: the loop variable kg;
    [lrs]: FManager, dwellCount and replacement score; [ltr]: what the finished
    generations did (de.py:565-638) *)
Record lst : Type := mkL { lch : st I; lph : phase; lkg : nat; lrs : rst; ltr : list RunModel.ev }.

(** self.running = b (de.py:419, 439) *)
Definition set_run (b : bool) (s : st I) : st I := mkSt (pop s) (locks s) (cs s) b (prun s) (abq s).

(** after the loop, by break or by for-else (630-635) (de.py:630-635) *)
Definition left (c : st I) (kg : nat) (r : rst) (l : list RunModel.ev) (w : reason) : lst :=
  match w with
  | RRaised _ => mkL c (LEnd w) kg r l
  | _ => if r_run r then mkL c (LRep w) kg r (l ++ [EReport]) else mkL c (LEnd w) kg r l
  end.
(** for kg in range(maxiter) (582) (de.py:582) *)
Definition loop_head (c : st I) (kg : nat) (r : rst) (l : list RunModel.ev) : lst :=
  if kg <? o_maxiter o then mkL c LTop kg r l else left c kg r l RMaxIter.
(** the end of the current generation, [generation] (RunModel.v) telling what
    happens then.  Whatever stopped the run there stops the challenges too (de.py:607-629) *)
Definition gen_end (g : gen) (s : lst) : lst :=
  match generation npsin up0 up1 o (lkg s) g (lrs s) with
  | (r, l, w) =>
    let c := set_run (ChalModel.run (lch s) && r_run r) (lch s) in
    match w with
    | None => loop_head c (S (lkg s)) r (ltr s ++ l)
    | Some w => left c (lkg s) r (ltr s ++ l) w
    end
  end.

(** what can happen next (de.py:582-638) *)
Inductive levent : Set :=
| LC (e : event)                          (** something happens to the challenges, or somebody calls shutdown or abort *)
| LGo                                     (** the reports are in: 587-589 *)
| LReq (q : quad)                         (** 591-599: the next challenge *)
| LNone                                   (** 594-597: no base index *)
| LAll                                    (** 601-606: all challenges of the generation started *)
| LBreak                                  (** 600, 606-610: not running any more, or a challenge failed *)
| LJoin (rirs : list Z) (u : f64) (f : fout)   (** all challenges of the generation finished: 607-629 *)
| LFinish.                                (** 635 *)

(** de.py:563 *)
Definition pdone (x : chal I) : bool := match cpc x with PDone => true | _ => false end.
(** the challenge ended by an exception (de.py:606-610) *)
Definition pfail (x : chal I) : bool := match cpc x with PFail => true | _ => false end.

(** [None]: the event cannot happen in this state (de.py:565-638) *)
Definition lstep (s : lst) (e : levent) : option lst :=
  match e with
  | LC (ERequest _) => None          (* only the loop starts challenges *)
  | LC e =>
    match step mk ev better histcrash xSSE (lch s) e with
    | Some c => Some (mkL c (lph s) (lkg s) (lrs s) (ltr s))
    | None => None
    end
  | LGo =>
    match lph s with
    | LTop =>
      if ChalModel.run (lch s) then Some (mkL (lch s) (LStart (length (cs (lch s))) 0) (lkg s) (lrs s) (ltr s))
      else Some (gen_end (mkGen false true ChDone [] fzero FOk) s)
    | _ => None
    end
  | LReq q =>
    match lph s with
    | LStart f k =>
      if (k <? length (pop (lch s))) && (kt q =? k) then
        match step mk ev better histcrash xSSE (lch s) (ERequest q) with
        | Some c => Some (mkL c (LStart f (S k)) (lkg s) (lrs s) (ltr s))
        | None => None
        end
      else None
    | _ => None
    end
  | LNone =>
    match lph s with
    | LStart f k => if k <? length (pop (lch s)) then Some (gen_end (mkGen true false ChDone [] fzero FOk) s) else None
    | _ => None
    end
  | LAll =>
    match lph s with
    | LStart f k =>
      if ChalModel.run (lch s) && (k =? length (pop (lch s)))
      then Some (mkL (lch s) (LWait f) (lkg s) (lrs s) (ltr s)) else None
    | _ => None
    end
  | LBreak =>
    match lph s with
    | LStart f k => if ChalModel.run (lch s) then None else Some (gen_end (mkGen true false ChDone [] fzero FOk) s)
    | LWait f =>
      if existsb pfail (skipn f (cs (lch s))) then Some (gen_end (mkGen true true ChFailed [] fzero FOk) s)
      else if ChalModel.run (lch s) then None else Some (gen_end (mkGen true true ChShut [] fzero FOk) s)
    | _ => None
    end
  | LJoin rirs u f =>
    match lph s with
    | LWait first =>
      if ChalModel.run (lch s) && forallb pdone (skipn first (cs (lch s)))
      then Some (gen_end (mkGen true true ChDone rirs u f) s) else None
    | _ => None
    end
  | LFinish =>
    match lph s with
    | LRep w => Some (mkL (set_run false (lch s)) (LEnd w) (lkg s) (stop_run (lrs s)) (ltr s))
    | _ => None
    end
  end.

(** any sequence of events (de.py:565-638) *)
Fixpoint lexec (s : lst) (es : list levent) : option lst :=
  match es with
  | [] => Some s
  | e :: es => match lstep s e with Some s' => lexec s' es | None => None end
  end.

(** a run on a set-up population (de.py:670-683): FManager and score as given *)
Definition linit (p : list I) (fm : fman) (sc : score) : lst := loop_head (init p) 0 (mkRst true fm 0 sc) [].
End Loop.
Arguments lst : clear implicits.
