(** * Python values shared by the model files.
    Not a model of code in /repo: exceptions as values, list helpers. *)
From Coq Require Import List Arith Lia Bool.
Import ListNotations.

(** the exception classes raised by the modelled code *)
Inductive exn : Set :=
| ValueError | IndexError | TypeError | KeyError | OverflowError
| AttributeError | UnboundLocalError | ZeroDivisionError | OSError | UserError.

Inductive res (A : Type) : Type := Ok (a : A) | Raise (e : exn).
Arguments Ok {A} a.
Arguments Raise {A} e.

Definition bind {A B} (m : res A) (f : A -> res B) : res B :=
  match m with Ok a => f a | Raise e => Raise e end.

Section Lists.
Context {A : Type}.

(** l[k] = x for an index in range; out of range leaves the list alone (the
    callers of the model only use it with k < len l) *)
Fixpoint upd (k : nat) (x : A) (l : list A) : list A :=
  match l, k with
  | [], _ => []
  | _ :: t, O => x :: t
  | h :: t, S k => h :: upd k x t
  end.

(** list.insert(k, x): at the end when k >= len *)
Fixpoint insert_at (k : nat) (x : A) (l : list A) : list A :=
  match k, l with
  | O, _ => x :: l
  | S k, h :: t => h :: insert_at k x t
  | S _, [] => [x]
  end.

Lemma upd_length : forall k x l, length (upd k x l) = length l.
Proof. intros k x l; revert k; induction l; destruct k; simpl; auto. Qed.

Lemma upd_same : forall k x l, k < length l -> nth_error (upd k x l) k = Some x.
Proof. intros k x l; revert k; induction l; destruct k; simpl; intros; auto; try lia. apply IHl; lia. Qed.

Lemma upd_other : forall k k' x l, k <> k' -> nth_error (upd k x l) k' = nth_error l k'.
Proof. intros k k' x l; revert k k'; induction l; destruct k, k'; simpl; intros; auto; try congruence. Qed.

Lemma nth_error_ext : forall l l' : list A,
  (forall k, nth_error l k = nth_error l' k) -> l = l'.
Proof.
  induction l; destruct l'; intros H; auto.
  - specialize (H 0); discriminate.
  - specialize (H 0); discriminate.
  - f_equal. specialize (H 0); now inversion H. apply IHl. intros k. exact (H (S k)).
Qed.
End Lists.

(** map over three lists in parallel, stopping at the shortest *)
Fixpoint map3 {A B C D} (f : A -> B -> C -> D) (la : list A) (lb : list B) (lc : list C) : list D :=
  match la, lb, lc with
  | a :: la, b :: lb, c :: lc => f a b c :: map3 f la lb lc
  | _, _, _ => []
  end.

Fixpoint map2 {A B C} (f : A -> B -> C) (la : list A) (lb : list B) : list C :=
  match la, lb with
  | a :: la, b :: lb => f a b :: map2 f la lb
  | _, _ => []
  end.

Lemma map3_nth : forall {A B C D} (f : A -> B -> C -> D) la lb lc k a b c,
  nth_error la k = Some a -> nth_error lb k = Some b -> nth_error lc k = Some c ->
  nth_error (map3 f la lb lc) k = Some (f a b c).
Proof.
  intros A B C D f. induction la; destruct lb, lc, k; simpl; intros; try discriminate.
  - congruence.
  - eapply IHla; eauto.
Qed.
Lemma map3_length : forall {A B C D} (f : A -> B -> C -> D) la lb lc,
  length la = length lb -> length la = length lc -> length (map3 f la lb lc) = length la.
Proof.
  intros A B C D f. induction la; destruct lb, lc; simpl; intros; try discriminate; auto.
Qed.
Lemma map2_nth : forall {A B C} (f : A -> B -> C) la lb k a b,
  nth_error la k = Some a -> nth_error lb k = Some b ->
  nth_error (map2 f la lb) k = Some (f a b).
Proof.
  intros A B C f. induction la; destruct lb, k; simpl; intros; try discriminate.
  - congruence.
  - eapply IHla; eauto.
Qed.
Lemma map2_length : forall {A B C} (f : A -> B -> C) la lb,
  length la = length lb -> length (map2 f la lb) = length la.
Proof. intros A B C f. induction la; destruct lb; simpl; intros; try discriminate; auto. Qed.

(** position of the first element satisfying p: list.index *)
Fixpoint index_of {A} (p : A -> bool) (l : list A) : option nat :=
  match l with
  | [] => None
  | x :: t => if p x then Some 0 else option_map S (index_of p t)
  end.
