(** Vocabulary for the statements about filters. *)
From Verif Require Import Base.
Open Scope R_scope.

Definition unit_sum (w : vec) : Prop := Rsum w = 1.
Definition all_nonneg (w : vec) : Prop := Forall (fun x => 0 <= x) w.
Definition within (lo hi : R) (v : vec) : Prop := Forall (fun x => lo <= x <= hi) v.

(** Windows with 2 h + 1 points, normalized *)
Definition boxcar_weight (h i : nat) : R := 1 / INR (2 * h + 1).
(** proportional to the distance from the first point outside of the window *)
Definition triang_weight (h i : nat) : R := INR (Nat.min (i + 1) (2 * h + 1 - i)) / INR (h + 1) ^ 2.
Definition hann_weight (h i : nat) : R :=
  match h with O => 1 | _ => sin (PI * INR i / INR (2 * h)) ^ 2 / INR h end.

(** Weighted mean of the 2 h + 1 neighbours of position j on a circle of n
    points, with weights cos^2 that vanish at the two outermost neighbours *)
Definition hann_mean (h : nat) (row : vec) (j : nat) : R :=
  Rsum (tab (2 * h + 1) (fun i =>
    cos (PI * (INR i - INR h) / INR (2 * h)) ^ 2 / INR h
    * nth (Z.to_nat ((Z.of_nat j + (Z.of_nat i - Z.of_nat h)) mod Z.of_nat (length row))) row 0)).
(** half the number of points of the window for a wavenumber *)
Definition wave_points (n : nat) (k : R) : nat :=
  Z.to_nat (Int_part (INR n / Rmin (Rmax k 1) (INR n / 2))).

(** The circle turned by s points *)
Definition rotate {A} (d : A) (s : Z) (l : list A) : list A :=
  tab (length l) (fun i => nth (Z.to_nat ((Z.of_nat i + s) mod Z.of_nat (length l))) l d).
