(** * Model of ranking and sampling in ade/population.py (KS, iSorted, kBest,
    best, __setitem__, push, sample, ProbabilitySampler), Individual.blacklist,
    and of the index selection in ade/de.py (_run, challenge) *)
From Coq Require Import List Bool Arith ZArith.
From Verif Require Import Flt FltMore Py.
Import ListNotations.

(** Individuals are objects: [heap] gives the SSE property of object number n
    (python identity), so that changing an individual in place is visible
    wherever it is referenced.  [cKS], [cIS]: the caches _KS, _iSorted
    (population.py:398, 578-624) *)
Record rk : Type := mkRk {
  heap : nat -> f64;
  iList : list nat;
  cKS : option (list nat);
  cIS : option (list nat)
}.
(** assignment to an individual's SSE (individual.py:123-128) *)
Definition setheap (h : nat -> f64) (id : nat) (x : f64) : nat -> f64 :=
  fun n => if Nat.eqb n id then x else h n.

Section Rank.
(** np.argsort (any sorting algorithm: the theorems assume only that it returns
    a sorting permutation) *)
Variable argsort : list f64 -> list nat.

(** KS property (population.py:578-587) *)
Definition get_KS (s : rk) : rk * option (list nat) :=
  match cKS s, iList s with
  | None, _ :: _ =>
    let K := argsort (map (heap s) (iList s)) in
    (mkRk (heap s) (iList s) (Some K) (cIS s), Some K)
  | c, _ => (s, c)
  end.
(** del KS (population.py:588-596), which deletes iSorted (608-615) *)
Definition del_KS (s : rk) : rk := mkRk (heap s) (iList s) None None.

(** [self.iList[k] for k in self.KS]; [None]: IndexError (population.py:606) *)
Fixpoint gather {A} (l : list A) (K : list nat) : option (list A) :=
  match K with
  | [] => Some []
  | k :: K => match nth_error l k, gather l K with Some x, Some t => Some (x :: t) | _, _ => None end
  end.
(** iSorted property (population.py:598-607) *)
Definition get_iSorted (s : rk) : rk * res (option (list nat)) :=
  let fresh := match cKS s, cIS s with Some _, Some _ => false | _, _ => true end in
  if fresh then
    match iList s with
    | [] => (s, Ok (cIS s))
    | _ => let (s, K) := get_KS s in
           match K with
           | Some K => match gather (iList s) K with
                       | Some l => (mkRk (heap s) (iList s) (cKS s) (Some l), Ok (Some l))
                       | None => (s, Raise IndexError)
                       end
           | None => (s, Raise TypeError)
           end
    end
  else (s, Ok (cIS s)).
(** kBest (population.py:617-624) *)
Definition get_kBest (s : rk) : rk * res (option nat) :=
  let (s, K) := get_KS s in
  match K with
  | None => (s, Ok None)
  | Some [] => (s, Raise IndexError)
  | Some (k :: _) => (s, Ok (Some k))
  end.
(** best() (population.py:1171-1176): the individual's identity *)
Definition get_best (s : rk) : rk * res (option nat) :=
  match iList s with
  | [] => (s, Ok None)
  | _ => let (s, k) := get_kBest s in
         match k with
         | Ok (Some k) => match nth_error (iList s) k with Some i => (s, Ok (Some i)) | None => (s, Raise IndexError) end
         | Ok None => (s, Raise TypeError)
         | Raise e => (s, Raise e)
         end
  end.
(** __setitem__ (population.py:526-547) with k >= 0; the history updates are in HistModel.v *)
Definition set_item (s : rk) (k id : nat) : rk * option exn :=
  if k <? length (iList s) then (del_KS (mkRk (heap s) (upd k id (iList s)) (cKS s) (cIS s)), None)
  else (s, Some IndexError).
(** push (population.py:1046-1053) *)
Definition push (s : rk) (id : nat) : rk * option exn :=
  let (s, K) := get_KS s in
  match K with
  | None => (s, Some TypeError)
  | Some K => match K with
              | [] => (s, Some IndexError)
              | _ => let (s, e) := set_item s (last K 0) id in
                     match e with None => (del_KS s, None) | _ => (s, e) end
              end
  end.
(** Individual.blacklist (individual.py:244-250) of an individual of this population *)
Definition blacklist (s : rk) (id : nat) : rk := del_KS (mkRk (setheap (heap s) id finf) (iList s) (cKS s) (cIS s)).
(** an individual gets an SSE by evaluation or assignment (individual.py:123-128, 284-289): no cache is touched *)
Definition set_sse (s : rk) (id : nat) (x : f64) : rk := mkRk (setheap (heap s) id x) (iList s) (cKS s) (cIS s).

(** what is done to the population or its individuals (population.py:526-624, 794-801, 1046-1053, individual.py:123-128, 244-250) *)
Inductive rop : Type :=
| RSet (k id : nat) | RPush (id : nat) | RBlacklist (id : nat) | RSSE (id : nat) (x : f64)
| RKS | RiSorted | RkBest | Rbest.
(** one of these (population.py:526-624, 794-801, 1046-1053) *)
Definition rstep (s : rk) (o : rop) : rk :=
  match o with
  | RSet k id => fst (set_item s k id)
  | RPush id => fst (push s id)
  | RBlacklist id => blacklist s id
  | RSSE id x => set_sse s id x
  | RKS => fst (get_KS s)
  | RiSorted => fst (get_iSorted s)
  | RkBest => fst (get_kBest s)
  | Rbest => fst (get_best s)
  end.
(** several of these, one after another (population.py:526-624, 794-801, 1046-1053) *)
Definition rrun (s : rk) (os : list rop) : rk := fold_left rstep os s.

(** ** Sampling *)
(** the randomBase keyword (population.py:1088-1092) *)
Inductive rbase : Set := RBool (b : bool) | RFloat (x : f64).

(** random.triangular(0, h, 0) of the python standard library; [u] = random()
    (population.py:275, 285) *)
Definition triangular0 (h u : f64) : f64 :=
  if feqb h fzero then fzero else
  let c := fdiv (fsub fzero fzero) (fsub h fzero) in
  if fltb c u then fadd h (fmul (fsub fzero h) (fsqrt (fmul (fsub fone u) (fsub fone c))))
  else fadd fzero (fmul (fsub h fzero) (fsqrt (fmul u c))).

(** 0.5 (population.py:280-281) *)
Definition f_half : f64 := flit 1 (-1).
(** ProbabilitySampler.trapz (population.py:266-277); [u1], [u2] the two draws *)
Definition trapz (rc u1 u2 : f64) : f64 :=
  let pr_tri := if fleb fone rc then fzero else fdiv (fsub fone rc) (fadd fone rc) in
  if fltb u1 pr_tri then fadd rc (triangular0 (fsub fone rc) u2)
  else funiform fzero rc u2.
(** the variate of ProbabilitySampler.__call__ (population.py:280-285) *)
Definition ps_variate (rb u1 u2 : f64) : f64 :=
  if fltb f_half rb then trapz (fmul (fofZ 2) (fsub rb f_half)) u1 u2
  else triangular0 (fmul (fofZ 2) rb) u1.

(** python int(x) and list indexing with an int (negative indices count from the end)
    (population.py:286) *)
Definition py_int (x : f64) : res Z :=
  if isfin x then Ok (ftrunc x) else if isnan x then Raise ValueError else Raise OverflowError.
(** an element by an index that may be negative (population.py:286) *)
Definition py_index {A} (l : list A) (z : Z) : res A :=
  let n := Z.of_nat (length l) in
  let z' := if (z <? 0)%Z then (n + z)%Z else z in
  if (z' <? 0)%Z then Raise IndexError else
  match nth_error l (Z.to_nat z') with Some x => Ok x | None => Raise IndexError end.
(** ProbabilitySampler.__call__ (population.py:279-286) *)
Definition ps_call (K : list nat) (rb u1 u2 : f64) : res nat :=
  bind (py_int (fmul (ps_variate rb u1 u2) (fofZ (Z.of_nat (length K))))) (py_index K).

(** result of sample: a list, an exception, or still looping when the given
    draws are used up (population.py:1109-1112) *)
Inductive sres : Set := SOk (l : list nat) | SRaise (e : exn) | SLoop.
(** membership (population.py:1094, 1111) *)
Definition memb (k : nat) (l : list nat) : bool := existsb (Nat.eqb k) l.
(** the while loop (population.py:1109-1112) *)
Fixpoint sample_loop (K : list nat) (N : nat) (rb : f64) (ds : list (f64 * f64)) (acc : list nat) : sres :=
  if N <=? length acc then SOk acc else
  match ds with
  | [] => SLoop
  | (u1, u2) :: ds =>
    match ps_call K rb u1 u2 with
    | Raise e => SRaise e
    | Ok k => if memb k acc then sample_loop K N rb ds acc else sample_loop K N rb ds (acc ++ [k])
    end
  end.
(** Population.sample (population.py:1055-1113).  [pick n N]: the positions chosen
    by random.sample of N out of n; [ds]: the draws of the probability sampler.  The single
    result for N = 1 is a one-element list here *)
Definition sample (s : rk) (N : nat) (exclude : list nat) (rb : rbase) (pick : nat -> nat -> list nat) (ds : list (f64 * f64)) : rk * sres :=
  let (s, KS) := get_KS s in
  match KS with
  | None => (s, SRaise TypeError)
  | Some KS =>
    let K := filter (fun k => negb (memb k exclude)) KS in
    let isfalse := match rb with RBool b => negb b | RFloat x => feqb x fzero end in
    let istrue := match rb with RBool b => b | RFloat x => feqb x fone end in
    (s,
     if isfalse then
       if 1 <? N then SRaise ValueError
       else match K with [] => SRaise IndexError | k :: _ => SOk [k] end
     else if istrue then
       if length K <? N then SRaise ValueError
       else match gather K (pick (length K) N) with Some l => SOk l | None => SRaise IndexError end
     else
       match rb with
       | RFloat x => if fltb fone x then SRaise ValueError else sample_loop K N x ds []
       | RBool _ => SRaise TypeError
       end)
  end.

(** ** Index selection of one challenge *)
(** loop head in DifferentialEvolution._run (de.py:591-593) *)
Definition choose_base (s : rk) (kt : nat) (rb : rbase) (pick : nat -> nat -> list nat) (ds : list (f64 * f64)) : rk * sres :=
  let truthy := match rb with RBool b => b | RFloat x => negb (feqb x fzero) end in
  if truthy then sample s 1 [kt] rb pick ds
  else
    let (s, k) := get_kBest s in
    match k with
    | Ok (Some kB) => if Nat.eqb kt kB then sample s 1 [kt] rb pick ds else (s, SOk [kB])
    | Ok None => (s, SRaise TypeError)
    | Raise e => (s, SRaise e)
    end.
(** followed by challenge's own draw (de.py:513) *)
Definition choose_quad (s : rk) (kt : nat) (rb : rbase) (pick1 : nat -> nat -> list nat) (ds : list (f64 * f64)) (pick2 : nat -> nat -> list nat) : rk * sres :=
  let (s, r) := choose_base s kt rb pick1 ds in
  match r with
  | SOk [kb] =>
    let (s, r) := sample s 2 [kt; kb] (RBool true) pick2 [] in
    match r with
    | SOk [k0; k1] => (s, SOk [kt; kb; k0; k1])
    | SOk _ => (s, SRaise ValueError)
    | e => (s, e)
    end
  | SOk _ => (s, SRaise TypeError)
  | e => (s, e)
  end.
End Rank.

(** a stable instance of argsort for the examples: insertion sort, NaN last
    (population.py:586) *)
Definition fbefore (x y : f64) : bool := if isnan x then isnan y else isnan y || fleb x y.
(** insertion for the sort of the examples (population.py:586) *)
Fixpoint ains (v : nat -> f64) (k : nat) (l : list nat) : list nat :=
  match l with
  | [] => [k]
  | h :: t => if fbefore (v k) (v h) then k :: l else h :: ains v k t
  end.
(** the sort of the examples (population.py:586) *)
Definition stable_argsort (v : list f64) : list nat :=
  fold_right (ains (fun k => nth k v fnan)) [] (seq 0 (length v)).
