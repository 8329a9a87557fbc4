(** Specification of contour levels *)
From Verif Require Import Base Spec_Quad.
From Coq Require Import List.
Open Scope R_scope.

(** n equally spaced levels from lo to hi *)
Definition even_levels (lo hi : R) (n : nat) (l : vec) : Prop :=
  length l = n /\ forall k, (k < n)%nat -> nth k l 0 = lo + INR k * ((hi - lo) / INR (n - 1)).
(** the same without the first and the last *)
Definition inner_levels (lo hi : R) (n : nat) (l : vec) : Prop :=
  length l = (n - 2)%nat /\ forall k, (k < n - 2)%nat -> nth k l 0 = lo + INR (S k) * ((hi - lo) / INR (n - 1)).
(** the largest magnitude of a field *)
Definition magnitude (nr nc : nat) (f : mat) (m : R) : Prop :=
  (forall i j, (i < nr)%nat -> (j < nc)%nat -> Rabs (mget f i j) <= m)
  /\ exists i j, (i < nr)%nat /\ (j < nc)%nat /\ Rabs (mget f i j) = m.
(** n equally spaced levels from -m to m, where m is given or the largest
    magnitude; -1 and 1 if this is 0 *)
Definition symmetric_range (nr nc : nat) (f : mat) (given : option R) (n : nat) (l : vec) : Prop :=
  exists m, match given with Some e => m = e | None => magnitude nr nc f m end
  /\ (m = 0 -> l = [-1; 1]) /\ (m <> 0 -> even_levels (- m) m n l).
(** the largest value of two fields *)
Definition largest_of_both (nr nc : nat) (f f' : mat) (m : R) : Prop :=
  (forall i j, (i < nr)%nat -> (j < nc)%nat -> mget f i j <= m /\ mget f' i j <= m)
  /\ exists i j, (i < nr)%nat /\ (j < nc)%nat /\ (mget f i j = m \/ mget f' i j = m).
