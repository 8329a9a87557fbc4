(** Vocabulary for symmetries: renumbering of longitudes, change of units. *)
From Coq Require Export String.
From Verif Require Import Base.

(** p is a renumbering of the n longitudes *)
Definition permutes (n : nat) (p : nat -> nat) : Prop :=
  (forall j, (j < n)%nat -> (p j < n)%nat) /\ (forall i j, (i < n)%nat -> (j < n)%nat -> p i = p j -> i = j).
(** entry j of the result is entry p j *)
Definition reorder {A} (d : A) (p : nat -> nat) (l : list A) : list A := map (fun j => nth (p j) l d) (seq 0 (length l)).
(** all rows of a field renumbered *)
Definition relabel {A} (d : A) (p : nat -> nat) (m : list (list A)) : list (list A) := map (reorder d p) m.
(** apply to the result of a successful computation *)
Definition on_ok {A B} (f : A -> B) (r : res A) : res B := match r with Ok a => Ok (f a) | Err e => Err e end.
(** change of the unit and of the zero of a quantity *)
Definition affine (a b x : R) : R := a * x + b.
