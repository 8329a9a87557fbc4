(** Global and zonal means of forcing fields and of PV (C143). *)
From Coq Require Export String.
From Verif Require Import Base Model_Grid Model_Spectral Model_State Spec_Conserve.
From Coq Require Import List.
Open Scope R_scope.

(** mean over the circle of latitude number i *)
Definition circle_mean (g : grid) (f : mat) (i : nat) : R := Rsum (tab (g_nlon g) (fun j => mget f i j)) / INR (g_nlon g).
(** mean over the sphere of the PV of a state *)
Definition mean_pv {K} (T : sphfam) (s : state K) : R := sphere_mean (s_grid s) (s_pv T s).
