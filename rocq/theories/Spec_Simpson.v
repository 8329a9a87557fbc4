(** A second concrete family of transforms of degree <= 1 on the grid of Spec_Instance:
    integrals over the sphere are computed with Simpson's rule along the meridian
    (weights 1/6, 4/6, 1/6 at the north pole, the equator and the south pole, exact
    for cubic polynomials of the sine of the latitude), and vorticity and divergence
    by integration against the gradients of the harmonics.  Products of two harmonics
    are thereby resolved without aliasing. *)
From Verif Require Export Base.
From Verif Require Import Model_Grid Model_Spectral Spec_Spectral Spec_Instance.
From Coquelicot Require Import Complex.

Definition simpson (f : nat -> R) : R := (f 0%nat + 4 * f 1%nat + f 2%nat) / 6.
Definition s1_analysis (f : mat) (nt : nat) : list C :=
  [RtoC (simpson (row_mean f)); RtoC (3 * simpson (fun i => d1_sphi i * row_mean f i));
   (3 / 2 * simpson (fun i => d1_cphi i * row_cos f i), - (3 / 2 * simpson (fun i => d1_cphi i * row_sin f i)))].
Definition s1_divergence (r : R) (u v : mat) : list C :=
  [RtoC 0; RtoC (- (3 / r * simpson (fun i => d1_cphi i * row_mean v i)));
   (3 / (2 * r) * simpson (fun i => row_sin u i + d1_sphi i * row_cos v i),
    3 / (2 * r) * simpson (fun i => row_cos u i - d1_sphi i * row_sin v i))].
Definition s1_vorticity (r : R) (u v : mat) : list C :=
  [RtoC 0; RtoC (3 / r * simpson (fun i => d1_cphi i * row_mean u i));
   (3 / (2 * r) * simpson (fun i => row_sin v i - d1_sphi i * row_cos u i),
    3 / (2 * r) * simpson (fun i => row_cos v i + d1_sphi i * row_sin u i))].
Definition s1_family : sphfam := fun _ _ r =>
  mkSpharm s1_analysis d1_synthesis (d1_getuv r) (fun u v _ => (s1_vorticity r u v, s1_divergence r u v)) (d1_getgrad r).
