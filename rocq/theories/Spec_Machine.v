(** Machine integers: ranges and remainders. *)
From Coq Require Export String.
From Coq Require Import ZArith List Reals.
From Verif Require Export Base Model_Machine.
Open Scope Z_scope.

Definition bits (t : itype) : Z := match t with Signed w | Unsigned w => w end.
(** the integers that a type can hold *)
Definition fits (t : itype) (x : Z) : Prop :=
  match t with Signed w => - 2 ^ (w - 1) <= x < 2 ^ (w - 1) | Unsigned w => 0 <= x < 2 ^ w end.
(** r is what remains of x in an array of the type t *)
Definition remains (t : itype) (x r : Z) : Prop := fits t r /\ exists k, r = x + k * 2 ^ bits t.
Definition all_fit (t : itype) (m : zmat) : Prop := Forall (Forall (fits t)) m.
(** half of the range of a signed type: differences fit *)
Definition half (w : Z) (x : Z) : Prop := - 2 ^ (w - 2) <= x < 2 ^ (w - 2).

Open Scope R_scope.
(** the same numbers as floats *)
Definition zfloats (f : zarray) : ndarray := match f with Z1 v => A1 (floats v) | Z2 m => A2 (mfloats m) end.
(** orders of derivatives with the divisors of their stencils, and the sums of the
    absolute values of their factors *)
Definition is_order (a : order_arg) (c : R) : Prop := (a = ONum 2 /\ c = 2) \/ ((a = ONum 4 \/ a = ONone) /\ c = 12).
Definition largest_sum (c : R) : Z := if Req_EM_T c 2 then 8%Z else 128%Z.
(** an element of the derivative of integers, and of the same numbers as floats *)
Definition wrapped (w : Z) (c dphi d d' : R) : Prop :=
  exists N r, remains (Signed w) N r /\ d = IZR N / c / dphi /\ d' = IZR r / c / dphi /\ (d' = d <-> fits (Signed w) N).
(** Neighbours on a meridian: the difference of y fits into its type, and so does
    that of z if it changes sign. *)
Definition tame (ty tz : itype) (yl zl yr zr : Z) : Prop :=
  fits ty (yr - yl) /\ ((zl < 0 <= zr)%Z \/ (zr < 0 <= zl)%Z -> fits tz (zr - zl)).
Definition gentle (ty tz : itype) (y z : zmat) : Prop :=
  forall i j, (S i < List.length y)%nat -> (j < zncols y)%nat -> tame ty tz (zget y i j) (zget z i j) (zget y (S i) j) (zget z (S i) j).
(** a number of levels, or None *)
Definition levels_of (o : option Z) : levels_arg := match o with None => LNone | Some n => LInt n end.
