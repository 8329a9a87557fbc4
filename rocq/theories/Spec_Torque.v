(** Torques: change of the angular momentum of the flow by a source of vorticity (C144). *)
From Coq Require Export String.
From Verif Require Import Base Model_Grid Model_Spectral Spec_Conserve.
From Coq Require Import List.
Open Scope R_scope.

(** The angular momentum about the axis is the mean of r cos(phi) u, by parts that of
    r^2 sin(phi) times the vorticity; a source F of vorticity changes it by that of
    r^2 sin(phi) F per second. *)
Definition torque (g : grid) (F : mat) : R :=
  sphere_mean g (mat_of (g_nlat g) (g_nlon g) (fun i j => g_rsphere g ^ 2 * sin (nth i (g_phi g) 0) * mget F i j)).
