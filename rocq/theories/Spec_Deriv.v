(** Specification vocabulary for the finite-difference derivative; uses only the
    type of the order argument of the model. *)
From Coq Require Import Reals List.
From Verif Require Import Model_Deriv.
From Coquelicot Require Import Coquelicot.
Open Scope R_scope.

(** polynomial with coefficients c0, c1, ... *)
Fixpoint peval (cs : list R) (x : R) : R :=
  match cs with nil => 0 | cons c cs' => c + x * peval cs' x end.

(** [f] is (n+1) times differentiable and its (n+1)-th derivative is bounded by
    [M] between the poles *)
Definition smooth_bounded (n : nat) (f : R -> R) (M : R) : Prop :=
  (forall t k, (k <= S n)%nat -> ex_derive_n f k t)
  /\ (forall t, - (PI / 2) <= t <= PI / 2 -> Rabs (Derive_n f (S n) t) <= M).

(** the two orders of approximation, the arguments selecting them, and the
    constants of the error bounds *)
Inductive oo := O2 | O4.
Definition ord (o : oo) : nat := match o with O2 => 2 | O4 => 4 end.
Definition denotes (a : order_arg) (o : oo) : Prop :=
  match o with O2 => a = ONum 2 | O4 => a = ONum 4 \/ a = ONone end.
Definition cst (o : oo) : R := match o with O2 => 1 | O4 => 17 / 3 end.
