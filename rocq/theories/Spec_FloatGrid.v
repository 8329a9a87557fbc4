(** Vocabulary for coordinates in double precision. *)
From Coq Require Import Reals ZArith List.
From Verif Require Import Spec_Float.
Open Scope R_scope.

(** a list of doubles with these values *)
Definition denote (l : list SpecFloat.spec_float) (r : list R) : Prop := Forall2 denotes l r.
(** the i-th of n + 1 equidistant latitudes from pole to pole *)
Definition latitude (n i : nat) : R := 90 - 180 * INR i / INR n.
(** the j-th of n equidistant longitudes *)
Definition longitude (n j : nat) : R := 360 * INR j / INR n.
(** an optional bound *)
Definition denotes_bound (b : option SpecFloat.spec_float) (r : option R) : Prop :=
  match b, r with
  | None, None => True
  | Some x, Some v => denotes x v
  | _, _ => False
  end.
(** the latitudes that a selection asks for: between the bounds (in any order),
    inclusive, widened by d *)
Definition in_latitudes (d : R) (lo hi : option R) (y : R) : Prop :=
  match lo, hi with
  | None, None => True
  | Some l, None => l - d <= y
  | None, Some h => y <= h + d
  | Some l, Some h => Rmin l h - d <= y <= Rmax l h + d
  end.
(** the longitudes that a selection asks for: from the first to the second bound
    eastward, across the 0-meridian if the second is the smaller one *)
Definition in_longitudes (d : R) (lo hi : option R) (x : R) : Prop :=
  match lo, hi with
  | None, None => True
  | Some l, None => l - d <= x
  | None, Some h => x <= h + d
  | Some l, Some h => (l <= h -> l - d <= x <= h + d) /\ (h < l -> x <= h + d \/ l - d <= x)
  end.
