(** Spherical harmonics on the latitudes and longitudes of any grid, and transforms
    made of them.  The harmonic of order m and degree n is
      cos(phi)^m * P(sin phi) * exp(i m lambda),
    P the derivative of order n+m of (z^2-1)^n (Rodrigues' formula for associated
    Legendre functions, up to a constant factor).  Coefficients of fields are means
    over the sphere, computed with the weights that make the mean of every polynomial
    in sin phi of degree < nlat exact.  Only harmonics of degree <= D are analysed. *)
From Coq Require Export String.
From Verif Require Export Base.
From Verif Require Import Model_Grid Model_Spectral Spec_Spectral Spec_Symmetry.
From Coquelicot Require Import Coquelicot.
From Coq Require Import List.
Open Scope R_scope.

(** latitude of row i, longitude of column j (radians) *)
Definition row_lat (nlat i : nat) : R := PI / 2 - PI * INR i / INR (nlat - 1).
Definition col_lon (nlon j : nat) : R := 2 * PI * INR j / INR nlon.
Definition rodrigues (n m : nat) (z : R) : R := Derive_n (fun t => (t ^ 2 - 1) ^ n) (n + m) z.

(** meridional part of the harmonic, of 1/cos(phi) d/dlambda of it (without the factor i)
    and of d/dphi of it *)
Definition part := nat -> nat -> R -> R.   (* order, degree, latitude *)
Definition h_value : part := fun m n phi => cos phi ^ m * rodrigues n m (sin phi).
Definition h_east : part := fun m n phi => INR m * cos phi ^ (m - 1) * rodrigues n m (sin phi).
Definition h_north : part := fun m n phi =>
  cos phi ^ (m + 1) * rodrigues n (m + 1) (sin phi) - INR m * cos phi ^ (m - 1) * sin phi * rodrigues n m (sin phi).

(** real part of a complex amplitude times exp(i a) *)
Definition swing (c : C) (a : R) : R := Re c * cos a - Im c * sin a.
Definition i_times (c : C) : C := (- Im c, Re c).

(** truncation of a spectral array, found from its length as in pyspharm *)
Definition trunc_of (len : nat) : nat := length (filter (fun t => Nat.ltb (nspec t) len) (seq 0 len)).
(** sum of harmonics at latitude phi and longitude lam *)
Definition sum_at (h : part) (x : list C) (phi lam : R) : R :=
  let nt := trunc_of (length x) in
  Rsum (tab (length x) (fun k => h (order nt k) (degree nt k) phi * swing (coef x k) (INR (order nt k) * lam))).
Definition sample (nlat nlon : nat) (F : R -> R -> R) : mat := mat_of nlat nlon (fun i j => F (row_lat nlat i) (col_lon nlon j)).

(** weights of the rows: means over [-1,1] of the polynomials that are 1 in one row and 0 in the others *)
Definition cardinal (nlat i : nat) (z : R) : R :=
  fold_right Rmult 1 (map (fun k => (z - sin (row_lat nlat k)) / (sin (row_lat nlat i) - sin (row_lat nlat k)))
    (filter (fun k => negb (Nat.eqb k i)) (seq 0 nlat))).
Definition row_weight (nlat i : nat) : R := RInt (cardinal nlat i) (-1) 1 / 2.
(** mean over the sphere of a gridded field times h * exp(-i m lambda) *)
Definition correlate (h : part) (nlat nlon m n : nat) (f : mat) : C :=
  (Rsum (tab nlat (fun i => row_weight nlat i * h m n (row_lat nlat i)
      * (Rsum (tab nlon (fun j => mget f i j * cos (INR m * col_lon nlon j))) / INR nlon))),
   - Rsum (tab nlat (fun i => row_weight nlat i * h m n (row_lat nlat i)
      * (Rsum (tab nlon (fun j => mget f i j * sin (INR m * col_lon nlon j))) / INR nlon)))).
(** mean square of the harmonic (of its real part) *)
Definition mean_square (m n : nat) : R :=
  (if Nat.eqb m 0 then 1 else / 2) * (RInt (fun z => (1 - z ^ 2) ^ m * (rodrigues n m z * rodrigues n m z)) (-1) 1 / 2).
(** coefficients of degree <= D *)
Definition coefs (D nt : nat) (c : nat -> nat -> C) : list C :=
  tab (nspec nt) (fun k => if Nat.leb (degree nt k) D then Cmult (RtoC (/ mean_square (order nt k) (degree nt k))) (c (order nt k) (degree nt k)) else RtoC 0).
Definition h_analysis (D nlat nlon : nat) (f : mat) (nt : nat) : list C :=
  coefs D nt (fun m n => correlate h_value nlat nlon m n f).
Definition h_synthesis (nlat nlon : nat) (x : list C) : mat := sample nlat nlon (sum_at h_value x).
Definition h_getgrad (r : R) (nlat nlon : nat) (x : list C) : mat * mat :=
  (sample nlat nlon (fun phi lam => sum_at h_east (map i_times x) phi lam / r),
   sample nlat nlon (fun phi lam => sum_at h_north x phi lam / r)).
(** streamfunction (velocity potential) of a vorticity (divergence), without a mean *)
Definition potential (r : R) (x : list C) : list C :=
  let nt := trunc_of (length x) in
  tab (length x) (fun k => if Nat.eqb (degree nt k) 0 then RtoC 0 else Cmult (RtoC (- / eigenvalue r (degree nt k))) (coef x k)).
Definition h_getuv (r : R) (nlat nlon : nat) (z d : list C) : mat * mat :=
  (sample nlat nlon (fun phi lam => (sum_at h_east (map i_times (potential r d)) phi lam - sum_at h_north (potential r z) phi lam) / r),
   sample nlat nlon (fun phi lam => (sum_at h_north (potential r d) phi lam + sum_at h_east (map i_times (potential r z)) phi lam) / r)).
(** mean of zeta*conj(Y) = mean of (u dY/dphi - v 1/cos(phi) dY/dlambda)/r, of delta*conj(Y) = - mean of the scalar product with grad Y *)
Definition h_getvrtdiv (D : nat) (r : R) (nlat nlon : nat) (u v : mat) (nt : nat) : list C * list C :=
  (coefs D nt (fun m n => Cmult (RtoC (/ r)) (Cplus (correlate h_north nlat nlon m n u) (i_times (correlate h_east nlat nlon m n v)))),
   coefs D nt (fun m n => Cmult (RtoC (/ r)) (Cminus (i_times (correlate h_east nlat nlon m n u)) (correlate h_north nlat nlon m n v)))).
Definition harmonics (D : nat) : sphfam := fun nlat nlon r =>
  mkSpharm (h_analysis D nlat nlon) (h_synthesis nlat nlon) (h_getuv r nlat nlon) (h_getvrtdiv D r nlat nlon) (h_getgrad r nlat nlon).
