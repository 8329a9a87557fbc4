(** Relaxation towards a reference: what it means for an integration to approach it. *)
From Coq Require Export String.
From Verif Require Import Base Model_Grid Model_Time Model_Spectral Model_State Model_Run Spec_Spectral Spec_Run.
From Coquelicot Require Import Complex.
From Coq Require Import List.
Open Scope R_scope.

(** difference between coefficient k of the PV of a state and of a field *)
Definition distance_to {K} (T : sphfam) (ref : mat) (k : nat) (s : state K) : R :=
  Cmod (coef (s_pvs s) k - coef (to_spectral T (s_grid s) ref) k)%C.
(** coefficient k comes and stays arbitrarily close to that of the reference *)
Definition approaches {K} (T : sphfam) (M : bmodel K) (init : state K) (dt : pyval K) (ref : mat) (k : nat) : Prop :=
  forall eps, 0 < eps -> exists n0, forall n, (n0 <= n)%nat ->
    exists s, trajectory T M init dt n s /\ distance_to T ref k s <= eps.
(** it comes and stays farther away than some distance *)
Definition stays_away {K} (T : sphfam) (M : bmodel K) (init : state K) (dt : pyval K) (ref : mat) (k : nat) : Prop :=
  exists eps n0, 0 < eps /\ forall n, (n0 <= n)%nat ->
    exists s, trajectory T M init dt n s /\ eps <= distance_to T ref k s.
(** divergences of vector fields are resolved *)
Definition resolved_divergence (T : sphfam) (g : grid) : Prop :=
  forall u v, shaped (g_nlat g) (g_nlon g) u -> shaped (g_nlat g) (g_nlon g) v ->
  resolved (sph T g) (g_ntrunc g) (snd (sh_getvrtdivspec (sph T g) u v (g_ntrunc g))).
(** the step dt lasts h seconds, for numbers, for dates or for times since the start *)
Inductive timed (init : state numR) (dt : pyval numR) (h : R) : Prop :=
| timed_numbers t0 : s_time init = @VNum numR t0 -> dt = @VNum numR h -> timed init dt h
| timed_dates d us : s_time init = VDate d -> dt = VDelta us -> h = IZR us / 1000000 -> timed init dt h
| timed_elapsed t us : s_time init = VDelta t -> dt = VDelta us -> h = IZR us / 1000000 -> timed init dt h.
