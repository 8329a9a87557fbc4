(** Symmetries of a circle of longitudes: rotations, with and without reversal of
    the direction. *)
From Coq Require Export String.
From Verif Require Import Base.

(** entry j of the result is entry p j (Spec_Sym.v) *)
Definition turns (n r : nat) (p : nat -> nat) : Prop := forall j, (j < n)%nat -> p j = ((r + j) mod n)%nat.
Definition turns_back (n r : nat) (p : nat -> nat) : Prop := forall j, (j < n)%nat -> p j = ((r + (n - j)) mod n)%nat.
Definition circle_symmetry (n : nat) (p : nat -> nat) : Prop := exists r, turns n r p \/ turns_back n r p.
