(** Specification vocabulary for grids; independent of the model. *)
From Coq Require Import Reals List.
From Coquelicot Require Import Coquelicot.
Open Scope R_scope.

(** [l] is the arithmetic progression of [n] numbers starting at [a] with step [d]. *)
Definition progression (a d : R) (n : nat) (l : list R) : Prop :=
  length l = n /\ forall i, (i < n)%nat -> nth i l 0 = a + INR i * d.

(** [x] is an integer. *)
Definition is_integer (x : R) : Prop := exists k : Z, x = IZR k.

(** Area of the polar cap north of latitude [phi] (radians) on a sphere of
    radius [r]: circles of latitude 2*pi*r*cos(x) integrated along the
    meridian (arc length r dx) up to the pole. *)
Definition cap_area (r phi : R) : R :=
  RInt (fun x => 2 * PI * r * cos x * r) phi (PI / 2).
