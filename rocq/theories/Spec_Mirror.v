(** Vocabulary for the contours of a field and of its reflection in the equator. *)
From Coq Require Export String.
From Verif Require Import Base Model_Quad Spec_Quad.
From Coq Require Import List.
Open Scope R_scope.

(** values with opposite sign in opposite order: the latitudes of reflected
    points, the contour levels of -q *)
Definition opposite (l : vec) : vec := rev (map Ropp l).
Definition opposite_levels (levels : levels_arg) : levels_arg :=
  match levels with LArr v => LArr (opposite v) | _ => levels end.

(** the contour q of the field has no area: no two neighbouring points of a
    meridian have the value q (linear interpolation between the points), no point
    has it (boxes around the points) *)
Definition no_ties (qd : string) (nlat nc : nat) (f : mat) (q : R) : Prop :=
  (qd = "boxcount"%string -> forall i j, (i < nlat)%nat -> (j < nc)%nat -> mget f i j <> q)
  /\ (qd = "sptrapz"%string -> forall i j, (S i < nlat)%nat -> (j < nc)%nat -> ~ (mget f i j = q /\ mget f (S i) j = q)).

(** different latitudes, none of them a pole *)
Definition inner_latitudes (y : vec) : Prop := NoDup y /\ forall x, In x y -> -90 < x < 90.
