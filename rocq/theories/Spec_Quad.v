(** Specification vocabulary for quadrature and interpolation; independent of
    the model. *)
From Coq Require Import Reals List.
From Verif Require Import Base.
From Coquelicot Require Import Coquelicot.
Open Scope R_scope.

(** [F] is the piecewise-linear interpolant of the values [y] at the positions
    [x] (given in descending order): on every interval between neighbouring
    positions it is the straight line through the two data points. *)
Definition pl_interpolant (x y : list R) (F : R -> R) : Prop :=
  forall i, (S i < length x)%nat -> forall t, nth (S i) x 0 <= t <= nth i x 0 ->
    F t = nth i y 0
          + (nth (S i) y 0 - nth i y 0) * (t - nth i x 0) / (nth (S i) x 0 - nth i x 0).

(** integrand of the line integral along a meridian on a sphere of radius [r]:
    r * Y(phi) * cos(phi) where Z(phi) >= 0 and 0 elsewhere *)
Definition masked (r : R) (Y Z : R -> R) (t : R) : R :=
  if Rle_dec 0 (Z t) then r * Y t * cos t else 0.

(** all values between two bounds *)
Definition between (lo hi : R) (l : list R) : Prop := forall x, In x l -> lo <= x <= hi.

(** [lo] and [hi] are the smallest and the largest entry of the nr x nc array [f] *)
Definition extremes (nr nc : nat) (f : mat) (lo hi : R) : Prop :=
  (forall i j, (i < nr)%nat -> (j < nc)%nat -> lo <= mget f i j <= hi)
  /\ (exists i j, (i < nr)%nat /\ (j < nc)%nat /\ mget f i j = lo)
  /\ (exists i j, (i < nr)%nat /\ (j < nc)%nat /\ mget f i j = hi).

(** [F] takes at every latitude the value of the (strictly) nearest position *)
Definition nearest_step (x y : list R) (F : R -> R) : Prop :=
  forall i t, (i < length x)%nat ->
    (forall k, (k < length x)%nat -> k <> i -> Rabs (t - nth i x 0) < Rabs (t - nth k x 0)) ->
    F t = nth i y 0.
