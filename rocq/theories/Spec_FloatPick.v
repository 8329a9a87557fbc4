(** Vocabulary for the selection of single coordinates. *)
From Coq Require Import Reals.
Open Scope R_scope.

(** the distance up to which a coordinate counts as the requested one *)
Definition tolerance (v : R) : R := / 10 ^ 8 + / 10 ^ 5 * Rabs v.
(** clearly within it and clearly outside of it: not a matter of rounding *)
Definition clearly_near (c v : R) : Prop := Rabs (c - v) <= (1 - / 2 ^ 49) * tolerance v - / 2 ^ 42.
Definition clearly_far (c v : R) : Prop := (1 + / 2 ^ 49) * tolerance v + / 2 ^ 42 < Rabs (c - v).
