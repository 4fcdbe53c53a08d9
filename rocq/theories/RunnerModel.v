(** * The example programs as programs: ade/examples/thermistor.py:294-425,
    ade/examples/voc.py:222-334, ade/examples/goldstein-price.py:194-266.

    What the programs do one after the other, and what becomes of the queue of
    worker processes when evaluations and shutdowns overlap.  The parts that are
    modelled elsewhere (evaluation, setup, DE) are here only by whether they
    succeed. *)
From Coq Require Import String Ascii List Bool ZArith.
From Verif Require Import Flt Py.
Import ListNotations.
Local Open Scope string_scope.

(** ** The queue of a Runner *)
(** the thermistor and the battery example (thermistor.py:294, voc.py:222) *)
Inductive example : Set := Thermistor | Voc.
(** what a Runner does with its queue and says (thermistor.py:327-344, voc.py:251-267) *)
Inductive qeff : Type :=
| QCall (values : list f64) (xSSE : option f64)
| QShut
| QSay (s : string).
(** [rn_q]: self.q is not None; [rn_wait]: for each call of q.shutdown(), whether
    the Runner still waits for it (thermistor.py:314-331, voc.py:238-255) *)
Record runner : Type := mkRn { rn_q : bool; rn_wait : list bool; rn_log : list qeff }.
(** __init__ (thermistor.py:308-318, voc.py:232-242) *)
Definition rn_init : runner := mkRn true [] [].
(** shutdown up to its first yield (thermistor.py:327-329, voc.py:251-253) *)
Definition rn_shutdown (r : runner) : runner :=
  if rn_q r then mkRn true (rn_wait r ++ [true]) (rn_log r ++ [QSay "Shutting down..."; QShut]) else r.
(** what evaluate returns: a Deferred for the call, None, a Deferred that has fired
    with None, or the one of shutdown (thermistor.py:334-344, voc.py:258-267) *)
Inductive eret : Set := RCall | RNone | RFired | RShutdown.
(** evaluate (thermistor.py:334-344, voc.py:258-267); the battery example has no xSSE *)
Definition rn_evaluate (x : example) (r : runner) (values : option (list f64)) (xSSE : option f64) : runner * eret :=
  match values with
  | None => match x with Thermistor => (r, RFired) | Voc => (rn_shutdown r, RShutdown) end
  | Some v =>
    if rn_q r then (mkRn (rn_q r) (rn_wait r) (rn_log r ++ [QCall v (match x with Thermistor => xSSE | Voc => None end)]), RCall)
    else (r, RNone)
  end.
(** what can happen; [RnDone k ok]: the [k]-th q.shutdown() has been done, or failed
    (thermistor.py:320-344, voc.py:244-267) *)
Inductive rnev : Type := RnEval (values : option (list f64)) (xSSE : option f64) | RnShut | RnDone (k : nat) (ok : bool).
(** the rest of shutdown after the yield (thermistor.py:329-332, voc.py:253-256) *)
Definition rn_done (r : runner) (k : nat) (ok : bool) : runner :=
  match nth_error (rn_wait r) k with
  | Some true =>
    let w := upd k false (rn_wait r) in
    if ok then mkRn false w (rn_log r ++ [QSay "Task Queue is shut down"; QSay "Goodbye"]) else mkRn (rn_q r) w (rn_log r)
  | _ => r
  end.
(** one event (thermistor.py:320-344, voc.py:244-267) *)
Definition rn_step (x : example) (r : runner) (e : rnev) : runner :=
  match e with
  | RnEval v s => fst (rn_evaluate x r v s)
  | RnShut => rn_shutdown r
  | RnDone k ok => rn_done r k ok
  end.
(** any sequence of events (thermistor.py:320-344, voc.py:244-267) *)
Definition rn_exec (x : example) (r : runner) (es : list rnev) : runner := fold_left (rn_step x) es r.

(** ** The programs *)
(** the options (thermistor.py:396-409, voc.py:323-332); -r and -x are options of the
    thermistor example only, -b one of the battery example *)
Record eargs : Type := mkEA { ea_h : bool; ea_m : Z; ea_p : Z; ea_C : f64; ea_F : string; ea_e : bool; ea_r : bool; ea_b : bool;
  ea_n : bool; ea_u : bool; ea_N : Z; ea_l : bool; ea_x : bool; ea_P : string }.
(** str.split(',') (thermistor.py:358, voc.py:280) *)
Fixpoint split_comma (s : string) : list string :=
  match s with
  | EmptyString => [""]
  | String c t =>
    if Ascii.eqb c "," then "" :: split_comma t
    else match split_comma t with [] => [String c ""] | w :: l => String c w :: l end
  end.
(** what the keywords of DifferentialEvolution are given (thermistor.py:359-363, voc.py:281-285) *)
Inductive kwv : Type := KNum (x : f64) | KInt (n : Z) | KBool (b : bool) | KList (l : list f64).
(** the keywords, without logHandle (thermistor.py:359-363, voc.py:281-285) *)
Definition de_kw (x : example) (a : eargs) (F : list f64) : list (string * kwv) :=
  match x with
  | Thermistor => [("CR", KNum (ea_C a)); ("F", KList F); ("maxiter", KInt (ea_m a)); ("xSSE", KBool (ea_x a)); ("randomBase", KBool (ea_r a));
      ("uniform", KBool (ea_u a)); ("adaptive", KBool (negb (ea_n a))); ("bitterEnd", KBool (ea_e a)); ("dwellByGrave", KInt 12)]
  | Voc => [("CR", KNum (ea_C a)); ("F", KList F); ("maxiter", KInt (ea_m a)); ("randomBase", KBool (negb (ea_b a)));
      ("uniform", KBool (ea_u a)); ("adaptive", KBool (negb (ea_n a))); ("bitterEnd", KBool (ea_e a))]
  end.
(** what a program does, each recorded when it is tried (thermistor.py:308-373,
    voc.py:232-295, goldstein-price.py:205-237) *)
Inductive eff : Type :=
| XWorkers (n : Z) | XLog (file : option string) | XData | XPopulation (popsize : Z) (target : option f64) | XSetup (uniform : bool)
| XCallback | XDE (kw : list (string * kwv)) | XRun | XShutdown | XSave (path : string) | XFinal | XElapsed | XLogOff | XStop | XOops.
(** what the program meets: the number of cores; whether each part succeeds; what
    float() makes of a text; Population.running when setup is done *)
Record world : Type := mkW { w_cores : Z; w_init : bool; w_data : bool; w_pop : bool; w_setup : bool; w_cb : bool; w_float : string -> option f64;
  w_running : option bool; w_run : bool; w_shut : bool; w_save : bool; w_show : bool }.
(** effects, and whether there was no exception (thermistor.py:346-369) *)
Definition act : Type := (list eff * bool)%type.
(** one thing after the other, unless there is an exception (thermistor.py:346-369) *)
Definition andthen (a b : act) : act := if snd a then ((fst a ++ fst b)%list, snd b) else a.
(** something that may raise (thermistor.py:346-369) *)
Definition try (e : eff) (ok : bool) : act := ([e], ok).
(** a list of texts put through float() (thermistor.py:358, voc.py:280) *)
Fixpoint floats (f : string -> option f64) (l : list string) : option (list f64) :=
  match l with
  | [] => Some []
  | s :: l => match f s, floats f l with Some x, Some r => Some (x :: r) | _, _ => None end
  end.
(** the constructor's check of CR (de.py:415-416) *)
Definition cr_ok (CR : f64) : bool := negb (fltb CR fzero || fltb fone CR).
(** FManager() of a list: F[0] and F[1] must exist (de.py:81-97, 107-111, 126-130) *)
Definition fman_ok (F : list f64) : bool := match F with _ :: _ :: _ => true | _ => false end.
(** DifferentialEvolution.__call__ (de.py:670-683) *)
Definition de_call (w : world) (F : list f64) : act :=
  match w_running w with
  | Some false => ([], true)
  | _ => if fman_ok F then try XRun (w_run w) else ([], false)
  end.
(** 0.005 (thermistor.py:306) *)
Definition f0005 : f64 := flit 5764607523034235 (-60).
(** Runner.__call__ (thermistor.py:346-369, voc.py:269-291); an error of ev.setup() or
    p.setup() is printed by oops, which makes it None *)
Definition runner_call (x : example) (a : eargs) (w : world) : act :=
  andthen (try XData true)
  (if w_data w then
    andthen (try (XPopulation (ea_p a) (match x with Thermistor => Some f0005 | Voc => None end)) (w_pop w))
    (andthen (XSetup false :: (if w_setup w then [] else [XOops]), true)
    (andthen (try XCallback (w_cb w))
    (match floats (w_float w) (split_comma (ea_F a)) with
     | None => ([], false)
     | Some F =>
       andthen (try (XDE (de_kw x a F)) (cr_ok (ea_C a)))
       (andthen (de_call w F)
       (andthen (try XShutdown (w_shut w))
       (andthen (match x with
                 | Thermistor => if (1 <? String.length (ea_P a))%nat then try (XSave (ea_P a)) (w_save w) else ([], true)
                 | Voc => ([], true) end)
       (andthen (try XFinal (w_show w))
       (match x with Thermistor => [XElapsed; XStop] | Voc => [XElapsed; XLogOff; XStop] end, true)))))
     end)))
   else ([XOops], false)).
(** Runner.run (thermistor.py:371-373, voc.py:293-295): an error is printed *)
Definition runner_run (x : example) (a : eargs) (w : world) : list eff :=
  let r := runner_call x a w in if snd r then fst r else (fst r ++ [XOops])%list.
(** Runner.__init__ (thermistor.py:308-318, voc.py:232-242) *)
Definition runner_init (x : example) (a : eargs) (w : world) : act :=
  ([XWorkers (if Z.eqb (ea_N a) 0 then Z.sub (w_cores w) 1 else ea_N a);
    XLog (if ea_l a then Some (match x with Thermistor => "thermistor.log" | Voc => "voc.log" end) else None)], w_init w).
(** main (thermistor.py:412-422, voc.py:296-306); the reactor runs until it is stopped *)
Definition main (x : example) (a : eargs) (w : world) : list eff :=
  if ea_h a then [] else
  let i := runner_init x a w in if snd i then (fst i ++ runner_run x a w)%list else fst i.
(** Solver() and its call (goldstein-price.py:205-212, 221-237); nothing catches an error *)
Definition solver_main (w : world) : act :=
  andthen (try (XPopulation 20 None) (w_pop w))
  (andthen (try (XSetup false) (w_setup w))
  (andthen (try XCallback (w_cb w))
  (andthen (try (XDE []) true)
  (andthen (match w_running w with Some false => ([], true) | _ => try XRun (w_run w) end)
  (andthen (try XShutdown (w_shut w))
  (andthen (try XFinal (w_show w)) ([XElapsed; XStop], true))))))).
