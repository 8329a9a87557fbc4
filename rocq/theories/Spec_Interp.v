(** Specification vocabulary for meridional interpolation; independent of the
    model. *)
From Coq Require Import Reals List.
From Verif Require Import Base.
Open Scope R_scope.

(** data point given to the interpolation: a (latitude, value) pair of the data
    or one of the two pole values *)
Definition is_node (lat field : list R) (pole : R * R) (p : R * R) : Prop :=
  p = (90, fst pole) \/ p = (-90, snd pole)
  \/ exists i, (i < length lat)%nat /\ p = (nth i lat 0, nth i field 0).

(** [w] does not leave the range of the data and pole values *)
Definition no_overshoot (lat field : list R) (pole : R * R) (w : R) : Prop :=
  forall lo hi, (forall p, is_node lat field pole p -> lo <= snd p <= hi) -> lo <= w <= hi.

(** [w] lies on the straight line between the neighbouring data points around
    the latitude [x] (and equals the data if [x] is the latitude of a data point) *)
Definition on_line (lat field : list R) (pole : R * R) (x w : R) : Prop :=
  forall a b, is_node lat field pole a -> is_node lat field pole b ->
    fst a <= x <= fst b -> fst a < fst b ->
    (forall c, is_node lat field pole c -> ~ (fst a < fst c < fst b)) ->
    w * (fst b - fst a) = snd a * (fst b - x) + snd b * (x - fst a).

Definition within_poles (l : list R) : Prop := forall x, In x l -> -90 <= x <= 90.
