(** A concrete family of transforms: exact spherical harmonics of degree <= 1
    (normalised to 1, sin(phi), cos(phi) e^(i lambda)) on the grid of resolution
    90 degrees (latitudes 90, 0, -90; longitudes 0, 90, 180, 270).  It shows that
    the assumptions [exact_transforms] can be met. *)
From Verif Require Export Base.
From Verif Require Import Model_Grid Model_Spectral Spec_Spectral.
From Coquelicot Require Import Complex.

Definition d1_sphi (i : nat) : R := nth i [1; 0; -1] 0.
Definition d1_cphi (i : nat) : R := nth i [0; 1; 0] 0.
Definition d1_clam (j : nat) : R := nth j [1; 0; -1; 0] 0.
Definition d1_slam (j : nat) : R := nth j [0; 1; 0; -1] 0.

(** zonal mean and wave-1 amplitudes of row i *)
Definition row_mean (f : mat) (i : nat) : R := (mget f i 0 + mget f i 1 + mget f i 2 + mget f i 3) / 4.
Definition row_cos (f : mat) (i : nat) : R := (mget f i 0 - mget f i 2) / 2.
Definition row_sin (f : mat) (i : nat) : R := (mget f i 1 - mget f i 3) / 2.

Definition d1_analysis (f : mat) (nt : nat) : list C :=
  [RtoC ((row_mean f 0 + row_mean f 2) / 2); RtoC ((row_mean f 0 - row_mean f 2) / 2);
   (row_cos f 1, - row_sin f 1)].
Definition d1_synthesis (x : list C) : mat :=
  mat_of 3 4 (fun i j => Re (coef x 0) + Re (coef x 1) * d1_sphi i
    + (Re (coef x 2) * d1_clam j - Im (coef x 2) * d1_slam j) * d1_cphi i).
(** components of (-1/r dpsi/dphi, 1/(r cos phi) dpsi/dlam) and of the gradient
    of chi for psi = -r^2/2 zeta, chi = -r^2/2 delta *)
Definition d1_getuv (r : R) (z d : list C) : mat * mat :=
  (mat_of 3 4 (fun i j => r / 2 * (Re (coef z 1) * d1_cphi i
      - (Re (coef z 2) * d1_clam j - Im (coef z 2) * d1_slam j) * d1_sphi i)
      + r / 2 * (Re (coef d 2) * d1_slam j + Im (coef d 2) * d1_clam j)),
   mat_of 3 4 (fun i j => r / 2 * (Re (coef z 2) * d1_slam j + Im (coef z 2) * d1_clam j)
      - r / 2 * (Re (coef d 1) * d1_cphi i
      - (Re (coef d 2) * d1_clam j - Im (coef d 2) * d1_slam j) * d1_sphi i))).
Definition d1_getvrtdiv (r : R) (u v : mat) (nt : nat) : list C * list C :=
  ([RtoC 0; RtoC (2 / r * row_mean u 1); (2 / r * row_sin v 1, 2 / r * row_cos v 1)],
   [RtoC 0; RtoC (- (2 / r * row_mean v 1)); (2 / r * row_sin u 1, 2 / r * row_cos u 1)]).
Definition d1_getgrad (r : R) (x : list C) : mat * mat :=
  (mat_of 3 4 (fun i j => / r * (- Re (coef x 2) * d1_slam j - Im (coef x 2) * d1_clam j)),
   mat_of 3 4 (fun i j => / r * (Re (coef x 1) * d1_cphi i
      - (Re (coef x 2) * d1_clam j - Im (coef x 2) * d1_slam j) * d1_sphi i))).

Definition d1_family : sphfam := fun _ _ r =>
  mkSpharm d1_analysis d1_synthesis (d1_getuv r) (d1_getvrtdiv r) (d1_getgrad r).
Definition d1_grid (rs om : R) : grid := mkGrid 90 rs om 4 3 1.
