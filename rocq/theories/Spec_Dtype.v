(** Vocabulary for arrays of integers. *)
From Verif Require Import Base Model_Region.
Open Scope R_scope.

Definition integral (x : R) : Prop := exists z : Z, x = IZR z.
(** y is the integer next to x in the direction of 0 *)
Definition toward_zero (x y : R) : Prop :=
  integral y /\ Rabs (x - y) < 1 /\ (0 <= x -> 0 <= y <= x) /\ (x <= 0 -> x <= y <= 0).
(** two arrays of the same shape, related value by value *)
Definition arrays (P : R -> R -> Prop) (a b : ndarray) : Prop :=
  match a, b with
  | A1 u, A1 v => Forall2 P u v
  | A2 m, A2 n => Forall2 (Forall2 P) m n
  | AOther, AOther => True
  | _, _ => False
  end.
(** the positions on a circle of n points that a window of k points around j covers *)
Definition covers (n k j i : nat) : Prop :=
  exists m, (m < k)%nat /\ Z.of_nat i = ((Z.of_nat j + Z.of_nat (k / 2) - Z.of_nat m) mod Z.of_nat n)%Z.
