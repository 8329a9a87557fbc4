(** Vocabulary for the statements about figures. *)
From Coq Require Export String.
From Verif Require Import Base.
Open Scope R_scope.

Definition at2 {A} (m : list (list A)) (i j : nat) : option A :=
  match nth_error m i with Some r => nth_error r j | None => None end.

(** The labels of the longitude axis say: position x is the meridian lon *)
Definition same_meridian (offset x lon : R) : Prop := exists m : Z, x - offset = lon + 360 * IZR m.

(** The values z drawn at the positions x, y are those of the field q at the
    gridpoint with that longitude and latitude. *)
Definition true_to {A} (offset : R) (lon lat : vec) (x y : mat) (z q : list (list A)) : Prop :=
  forall i k a b c, at2 x i k = Some a -> at2 y i k = Some b -> at2 z i k = Some c ->
  exists r j l, nth_error lat r = Some b /\ nth_error lon j = Some l /\ same_meridian offset a l /\ at2 q r j = Some c.
(** Every gridpoint of the field is drawn at its longitude and latitude *)
Definition complete {A} (offset : R) (lon lat : vec) (x y : mat) (z q : list (list A)) : Prop :=
  forall r j b l c, nth_error lat r = Some b -> nth_error lon j = Some l -> at2 q r j = Some c ->
  exists i k a, at2 x i k = Some a /\ at2 y i k = Some b /\ at2 z i k = Some c /\ same_meridian offset a l.
Definition map_of {A} (offset : R) (lon lat : vec) (x y : mat) (z q : list (list A)) : Prop :=
  true_to offset lon lat x y z q /\ complete offset lon lat x y z q.

(** Latitudes of a hemisphere *)
Definition in_north (y : R) : Prop := 0 <= y.
Definition in_south (y : R) : Prop := y <= 0.

(** The latitudes shown between the limits lo and hi *)
Definition shows_hemisphere (hemisphere : string) (lim : R * R) : Prop :=
  forall y, -90 <= y <= 90 ->
  (fst lim <= y <= snd lim <-> (hemisphere = "N"%string -> in_north y) /\ (hemisphere = "S"%string -> in_south y)).
