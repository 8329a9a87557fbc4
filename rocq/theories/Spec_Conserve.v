(** Energy, enstrophy and angular momentum of a flow: means over the sphere. *)
From Coq Require Export String.
From Verif Require Import Base Model_Grid Model_Spectral Model_State Spec_Harmonics.
From Coq Require Import List.
Open Scope R_scope.

(** mean over the sphere of a field on the grid, exact for polynomials in sin(latitude) of degree < nlat *)
Definition sphere_mean (g : grid) (f : mat) : R :=
  Rsum (tab (g_nlat g) (fun i => row_weight (g_nlat g) i * (Rsum (tab (g_nlon g) (fun j => mget f i j)) / INR (g_nlon g)))).
(** per unit mass *)
Definition mean_energy {K} (T : sphfam) (s : state K) : R := sphere_mean (s_grid s) (s_energy T s).
Definition mean_enstrophy {K} (T : sphfam) (s : state K) : R := sphere_mean (s_grid s) (s_enstrophy T s).
(** what two flows have in common: half the mean of (u,v).(u',v') and of q*q' *)
Definition common_energy {K} (T : sphfam) (s s' : state K) : R :=
  sphere_mean (s_grid s) (mscale (1 / 2) (madd (mmul (s_u T s) (s_u T s')) (mmul (s_v T s) (s_v T s')))).
Definition common_enstrophy {K} (T : sphfam) (s s' : state K) : R :=
  sphere_mean (s_grid s) (mscale (1 / 2) (mmul (s_pv T s) (s_pv T s'))).
(** relative angular momentum about the axis of the planet *)
Definition momentum {K} (T : sphfam) (s : state K) : R :=
  sphere_mean (s_grid s) (mat_of (g_nlat (s_grid s)) (g_nlon (s_grid s)) (fun i j =>
    g_rsphere (s_grid s) * cos (nth i (g_phi (s_grid s)) 0) * mget (s_u T s) i j)).
