(** Rossby-Haurwitz waves: flows made of harmonics of one degree on top of a
    solid-body rotation, and the products that the transforms must resolve. *)
From Coq Require Export String.
From Verif Require Import Base Model_Grid Model_Time Model_Spectral Model_State Model_Run Spec_Spectral Spec_Run Spec_Symmetry.
From Coquelicot Require Import Complex.
From Coq Require Import List.
Open Scope R_scope.

(** sine of the latitude, from the north pole to the south pole *)
Definition sine_lat (nlat nlon : nat) : mat := mat_of nlat nlon (fun i _ => sin (PI / 2 - PI * INR i / INR (nlat - 1))).
(** only harmonics of degree n *)
Definition of_degree (nt n : nat) (z : list C) : Prop :=
  length z = nspec nt /\ forall k, (k < nspec nt)%nat -> degree nt k <> n -> coef z k = RtoC 0.
(** the divergence of the flux of a field by the flow with vorticity x *)
Definition flux_divergence (S : spharm) (nt : nat) (f : mat) (x : list C) : list C :=
  let w := sh_getuv S x (repeat (RtoC 0) (nspec nt)) in snd (sh_getvrtdivspec S (mmul f (fst w)) (mmul f (snd w)) nt).

(** products of degree n resolved without aliasing.  With s the sine of the
    latitude and z of degree n (streamfunction -r^2 z/(n(n+1))):
    - z is constant along its own streamlines, s along those of the flow with vorticity s;
    - the flow of z crosses the latitudes with the velocity 1/(r cos phi) d psi/d lambda;
    - the flow with vorticity s is a rotation with angular velocity 1/2. *)
Record exact_products (S : spharm) (nlat nlon nt n : nat) : Prop := {
  ep_sine : sh_spectogrd S (sh_grdtospec S (sine_lat nlat nlon) nt) = sine_lat nlat nlon;
  ep_own : forall z k, of_degree nt n z -> resolved S nt z -> coef (flux_divergence S nt (sh_spectogrd S z) z) k = RtoC 0;
  ep_rotation_own : forall k, coef (flux_divergence S nt (sine_lat nlat nlon) (sh_grdtospec S (sine_lat nlat nlon) nt)) k = RtoC 0;
  ep_across : forall z k, of_degree nt n z -> resolved S nt z -> (k < nspec nt)%nat ->
    coef (flux_divergence S nt (sine_lat nlat nlon) z) k = Cmult (0, - (INR (order nt k) / (INR n * (INR n + 1)))) (coef z k);
  ep_rotation : forall z k, of_degree nt n z -> resolved S nt z -> (k < nspec nt)%nat ->
    coef (flux_divergence S nt (sh_spectogrd S z) (sh_grdtospec S (sine_lat nlat nlon) nt)) k = Cmult (0, INR (order nt k) / 2) (coef z k)
}.
Definition products_on (T : sphfam) (g : grid) (n : nat) : Prop :=
  exact_products (sph T g) (g_nlat g) (g_nlon g) (g_ntrunc g) n.

(** PV coefficients of the flow with vorticity a*sin(latitude) *)
Definition rotating (T : sphfam) (g : grid) (a : R) : list C :=
  sscale (2 * g_omega g + a) (to_spectral T g (sine_lat (g_nlat g) (g_nlon g))).
(** the state is such a rotation plus the harmonics z of degree n *)
Definition rossby_wave {K} (T : sphfam) (g : grid) (a : R) (n : nat) (z : list C) (s : state K) : Prop :=
  s_grid s = g /\ of_degree (g_ntrunc g) n z /\ resolved (sph T g) (g_ntrunc g) z /\ s_pvs s = sadd (rotating T g a) z.
(** frequency of a wave of order m (Rossby, Haurwitz): waves exp(i (m lambda + w t)) *)
Definition frequency (om a : R) (n m : nat) : R := INR m * ((2 * om + a) / (INR n * (INR n + 1)) - a / 2).
(** a wave of frequency w and amplitude c at time t *)
Definition evolved (w t : R) (c : C) : C := Cmult (cos (w * t), sin (w * t)) c.
(** the wave in a state with the rotation taken away *)
Definition wave_part {K} (T : sphfam) (g : grid) (a : R) (s : state K) (k : nat) : C :=
  Cminus (coef (s_pvs s) k) (coef (rotating T g a) k).

(** what becomes of coefficient k of the wave in the course of an integration *)
Definition wave_dies {K} (T : sphfam) (g : grid) (M : bmodel K) (init : state K) (dt : pyval K) (a : R) (k : nat) : Prop :=
  forall eps, 0 < eps -> exists n0, forall i, (n0 <= i)%nat -> exists s, trajectory T M init dt i s /\ Cmod (wave_part T g a s k) <= eps.
Definition wave_bounded {K} (T : sphfam) (g : grid) (M : bmodel K) (init : state K) (dt : pyval K) (a : R) (k : nat) : Prop :=
  exists most, forall i, exists s, trajectory T M init dt i s /\ Cmod (wave_part T g a s k) <= most.
Definition wave_explodes {K} (T : sphfam) (g : grid) (M : bmodel K) (init : state K) (dt : pyval K) (a : R) (k : nat) : Prop :=
  forall most, exists n0, forall i, (n0 <= i)%nat -> exists s, trajectory T M init dt i s /\ most <= Cmod (wave_part T g a s k).
