(** * Model of the population as a container with locks (ade/population.py:520-576,
    1115-1187). *)
From Coq Require Import Bool Arith ZArith List.
From Verif Require Import Flt Py MapModel IndivModel.
Import ListNotations.
Local Open Scope nat_scope.

(** ** Locks

    A DeferredLock: the request that has it (it is locked if there is one), and
    those waiting, first come first.  Requests are numbers.  Simplified: what is
    waiting for a lock does not itself lock or release while being told. *)
(** twisted.internet.defer.DeferredLock, as used at population.py:1149, 1160-1162 *)
Record dlock : Type := mkLock { holder : option nat; waiting : list nat }.
(** a new DeferredLock (population.py:1149) *)
Definition free_lock : dlock := mkLock None [].
(** dLock.acquire() (population.py:1149) *)
Definition acquire (r : nat) (l : dlock) : dlock :=
  match holder l with None => mkLock (Some r) (waiting l) | Some _ => mkLock (holder l) (waiting l ++ [r]) end.
(** tryRelease (population.py:1160-1162) *)
Definition try_release (l : dlock) : dlock :=
  match holder l with
  | None => l
  | Some _ => match waiting l with [] => mkLock None [] | r :: w => mkLock (Some r) w end
  end.

(** release (population.py:1152-1169); the exception, if any, comes after the locks
    before the bad index were released *)
Fixpoint release_each (ls : list dlock) (ks : list Z) : list dlock * res unit :=
  match ks with
  | [] => (ls, Ok tt)
  | k :: ks =>
    match pos (length ls) k with
    | Raise e => (ls, Raise e)
    | Ok j => release_each (upd j (try_release (nth j ls free_lock)) ls) ks
    end
  end.
(** release (population.py:1152-1169) *)
Definition release (ls : list dlock) (ks : list Z) : list dlock * res unit :=
  match ks with [] => (map try_release ls, Ok tt) | _ => release_each ls ks end.

(** what lock returns: a Deferred that has fired (defer.succeed), or one that fires
    when no lock has the request waiting any more (population.py:1139, 1148, 1150) *)
Inductive dres : Type := Immediate | WhenAll.
(** lock (population.py:1126-1150), the loop over the rest [ks] of [all] indices *)
Fixpoint lock_each (ls : list dlock) (r : nat) (all ks : list Z) : list dlock * res dres :=
  match ks with
  | [] => (ls, Ok WhenAll)
  | k :: ks =>
    if Nat.ltb 1 (count_occ Z.eq_dec all k) then (ls, Raise ValueError)
    else if Z.leb (Z.of_nat (length ls)) k then (fst (release ls []), Ok Immediate)
    else match pos (length ls) k with
         | Raise e => (ls, Raise e)
         | Ok j => lock_each (upd j (acquire r (nth j ls free_lock)) ls) r all ks
         end
  end.
(** [running] is None, True or False (population.py:1126-1150) *)
Definition lock (running : option bool) (ls : list dlock) (r : nat) (ks : list Z) : list dlock * res dres :=
  match running with Some false => (ls, Ok Immediate) | _ => lock_each ls r ks ks end.
(** has the Deferred fired? (population.py:1150) *)
Definition fired (ls : list dlock) (r : nat) (d : dres) : bool :=
  match d with Immediate => true | WhenAll => forallb (fun l => negb (existsb (Nat.eqb r) (waiting l))) ls end.

(** ** Individuals *)
(** what individuals() returns: None, one individual, or a list (population.py:1115-1124) *)
Inductive ires (A : Type) : Type := INone | IOne (a : A) | IMany (l : list A).
Arguments INone {A}. Arguments IOne {A} a. Arguments IMany {A} l.
(** individuals (population.py:1115-1124) *)
Fixpoint ind_loop {A} (il : list A) (ks : list Z) (result : list A) : res (ires A) :=
  match ks with
  | [] => Ok (match result with [a] => IOne a | _ => IMany result end)
  | k :: ks => if Z.leb (Z.of_nat (length il)) k then Ok INone else bind (item il k) (fun a => ind_loop il ks (result ++ [a]))
  end.
(** individuals (population.py:1115-1124) *)
Definition individuals {A} (il : list A) (ks : list Z) : res (ires A) := ind_loop il ks [].
(** evalTimes (population.py:1178-1187) *)
Fixpoint evalTimes (il : list indiv) : list f64 :=
  match il with [] => [] | i :: il => match idt i with None => evalTimes il | Some dt => dt :: evalTimes il end end.
(** __contains__ (population.py:565-569): list membership goes by identity or
    equality.  The individuals are given with their identities. *)
Definition contains (il : list (nat * indiv)) (i : nat * indiv) : bool :=
  existsb (fun x => Nat.eqb (fst x) (fst i) || ind_eq (snd x) (snd i)) il.
