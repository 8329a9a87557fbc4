(** Specification vocabulary for finite-amplitude local wave activity; only the
    type of the levels argument is taken from the model. *)
From Coq Require Import Reals List.
From Verif Require Import Base Model_Quad.
Open Scope R_scope.

(** level arguments that describe at least one contour *)
Definition valid_levels (levels : levels_arg) : Prop :=
  match levels with LNone => True | LInt n => (0 < n)%Z | LArr v => v <> nil end.

(** integrand of the wave activity along a meridian with PV profile [P], for the
    contour value [q] and the reference latitude [phi0] in radians: the PV
    anomaly inside the contour less the anomaly poleward of the reference latitude *)
Definition activity_density (r : R) (P : R -> R) (q phi0 t : R) : R :=
  (if Rle_dec q (P t) then r * (P t - q) * cos t else 0)
  - (if Rle_dec phi0 t then r * (P t - q) * cos t else 0).

(** every entry of a list of rows *)
Definition all_entries {A} (Q : A -> Prop) (m : list (list A)) : Prop := Forall (Forall Q) m.
