(** Vocabulary for the statements about zonal wavenumbers. *)
From Verif Require Import Base.
Open Scope R_scope.

(** Wave with k crests on a circle of n points *)
Definition zonal_wave (n k : nat) (a b : R) (j : nat) : R :=
  a * cos (2 * PI * (INR k * INR j) / INR n) + b * sin (2 * PI * (INR k * INR j) / INR n).
Definition amplitude (a b : R) : R := sqrt (a ^ 2 + b ^ 2).

(** Cosine and sine coefficient for wavenumber k *)
Definition cos_coeff (x : vec) (k : nat) : R :=
  Rsum (tab (length x) (fun j => nth j x 0 * cos (2 * PI * (INR k * INR j) / INR (length x)))).
Definition sin_coeff (x : vec) (k : nat) : R :=
  Rsum (tab (length x) (fun j => nth j x 0 * sin (2 * PI * (INR k * INR j) / INR (length x)))).
Definition wave_power (x : vec) (k : nat) : R := cos_coeff x k ^ 2 + sin_coeff x k ^ 2.

Definition in_range (kmin kmax k : nat) : Prop := (kmin <= k <= kmax)%nat.
