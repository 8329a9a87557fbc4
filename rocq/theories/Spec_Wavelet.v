(** Vocabulary for the statements about the local dominant wavenumber. *)
From Verif Require Import Base.
Open Scope R_scope.

(** The row continued periodically to three times its length *)
Definition three_periods (x : vec) : vec := tab (3 * length x) (fun j => nth (j mod length x) x 0).
(** The 120 scales: from 3 to 192 points, 119 equal steps in the logarithm *)
Definition scale_no (m : nat) : R := 3 * Rpower 2 (6 * INR m / 119).
(** The wavenumber of a scale, on a circle of n points *)
Definition wavenumber_of (cf : R) (n : nat) (scale : R) : R := cf * INR n / scale.
(** Squared modulus of entry j of a complex vector *)
Definition power_at (z : list (R * R)) (j : nat) : R := fst (nth j z (0, 0)) ^ 2 + snd (nth j z (0, 0)) ^ 2.
