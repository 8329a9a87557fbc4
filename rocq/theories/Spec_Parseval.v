(** Inner products of rows and the weight of wavenumbers on a circle. *)
From Verif Require Import Base Spec_Fourier.
Open Scope R_scope.

Definition dot (x y : vec) : R := Rsum (tab (length x) (fun j => nth j x 0 * nth j y 0)).
Definition distance2 (x y : vec) : R := Rsum (tab (length x) (fun j => (nth j x 0 - nth j y 0) ^ 2)).
(** wavenumber 0 and, on a circle of 2 k points, wavenumber k have one wave, the others two *)
Definition weight (n k : nat) : R := if Nat.eqb k 0 || Nat.eqb (2 * k) n then 1 else 2.
(** sum over the wavenumbers resolved by n points that lie in the range *)
Definition sum_range (n kmin kmax : nat) (F : nat -> R) : R :=
  Rsum (tab (n / 2 + 1) (fun k => if Nat.leb kmin k && Nat.leb k kmax then F k else 0)).
(** x consists of waves in the range only *)
Definition only_waves (kmin kmax : nat) (x : vec) : Prop :=
  forall k, (k <= length x / 2)%nat -> ~ in_range kmin kmax k -> cos_coeff x k = 0 /\ sin_coeff x k = 0.
(** every entry multiplied by c *)
Definition times (c : R) (f : mat) : mat := map (map (Rmult c)) f.
