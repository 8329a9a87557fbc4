(** Vocabulary for the statements about single precision. *)
From Coq Require Import Reals ZArith Floats.SpecFloat List.
From Verif Require Import Spec_Float.
Open Scope R_scope.

(** x is a single precision number (neither infinite nor NaN) with the value r *)
Definition denotes32 (x : spec_float) (r : R) : Prop :=
  valid_binary 24 128 x = true /\ match x with S754_zero _ | S754_finite _ _ _ => True | _ => False end /\ float_value x = r.
(** v is off from r by at most the fraction e of r *)
Definition within (e r v : R) : Prop := Rabs (v - r) <= e * Rabs r.
(** both parts of a complex number *)
Definition denotes_pair (x : spec_float * spec_float) (z : R * R) : Prop :=
  denotes32 (fst x) (fst z) /\ denotes32 (snd x) (snd z).
(** minus the eigenvalue of the Laplacian for the degree n on a sphere of radius r *)
Definition eigenvalue (r : R) (n : nat) : R := INR n * (INR n + 1) / (r * r).
(** both parts of a complex number are off by at most the fraction e and a tiny amount t *)
Definition close_parts (e t : R) (w z : R * R) : Prop :=
  Rabs (fst w - fst z) <= e * Rabs (fst z) + t /\ Rabs (snd w - snd z) <= e * Rabs (snd z) + t.
