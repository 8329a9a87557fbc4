(** What the field attributes of a State are supposed to return, as functions of
    its grid and PV. *)
From Coq Require Export String.
From Verif Require Import Base Model_Grid Model_Time Model_Spectral Model_State Model_Lazy Spec_Spectral.
Open Scope R_scope.

(** value of each attribute as a function of the state *)
Definition field_value {K} (T : sphfam) (D : diagnostics) (s : state K) (a : attribute) : res fieldval :=
  match a with
  | Apv | Aavo => Ok (FM (s_pv T s))
  | Apv_spectral => Ok (FS (s_pvs s))
  | Au => Ok (FM (s_u T s))
  | Av => Ok (FM (s_v T s))
  | Astreamfunction => Ok (FM (s_streamfunction T s))
  | Apv_flux_spectral => Ok (FS (s_pv_flux_spectral T s))
  | Avorticity | Avo => Ok (FM (s_vorticity T s))
  | Avorticity_spectral => Ok (FS (s_vorticity_spectral T s))
  | Aenstrophy => Ok (FM (s_enstrophy T s))
  | Aeddy_enstrophy => Ok (FM (s_eddy_enstrophy T s))
  | Aenergy => Ok (FM (s_energy T s))
  | Apv_zonalized => do x <- d_zonalize D (s_grid s) (s_pv T s); Ok (FV x)
  | Afawa => do x <- d_falwa D (s_grid s) (s_pv T s); Ok (FV (map vmean x))
  | Afalwa => do x <- d_falwa D (s_grid s) (s_pv T s); Ok (FM x)
  | Afalwa_filtered => do k <- d_dominant D (s_grid s) (s_v T s); do a <- d_falwa D (s_grid s) (s_pv T s); do x <- d_filter D a (vscale 2 k); Ok (FM x)
  | Av_envelope_hilbert => do x <- d_envelope D (s_v T s); Ok (FM x)
  | Astationary_wavenumber => do x <- d_ks D (s_grid s) (s_u T s) (s_pv T s); Ok (FS x)
  end.


(** a State on grid [g] whose PV coefficients are represented exactly there; every
    State built from a gridded field is of this kind *)
Definition on_grid {K} (T : sphfam) (g : grid) (s : state K) : Prop :=
  s_grid s = g /\ List.length (s_pvs s) = nspec (g_ntrunc g) /\ resolved (sph T g) (g_ntrunc g) (s_pvs s).
