(** Specification vocabulary for regions and means; uses only the data types
    of the model (grid, region, mean_result), none of its functions except
    [region_getitem] in [valid_region]. *)
From Verif Require Import Base Model_Grid Model_Region.

Definition strictly_increasing (l : list R) : Prop :=
  forall i j, (i < j)%nat -> (j < length l)%nat -> nth i l 0 < nth j l 0.
Definition strictly_decreasing (l : list R) : Prop :=
  forall i j, (i < j)%nat -> (j < length l)%nat -> nth j l 0 < nth i l 0.

(** [l] lists exactly the members of [coord] satisfying [P]. *)
Definition exactly (coord : list R) (P : R -> Prop) (l : list R) : Prop :=
  forall x, In x l <-> In x coord /\ P x.

(** finite sum over a list of indices *)
Fixpoint sum_over {A} (I : list A) (f : A -> R) : R :=
  match I with nil => 0 | cons i I' => f i + sum_over I' f end.

(** mean of f(i,j) over rows I and columns J with row weights w(i) *)
Definition weighted_mean {A B} (w : A -> R) (I : list A) (J : list B) (f : A -> B -> R) : R :=
  sum_over I (fun i => sum_over J (fun j => w i * f i j))
  / sum_over I (fun i => sum_over J (fun _ => w i)).

(** surface area between two latitudes (radians) in a sector of width dlam *)
Definition sector_area (r dlam north south : R) : R := r * r * dlam * (sin north - sin south).

(** number of [true] entries *)
Definition count_true (m : list (list bool)) : nat :=
  list_sum (map (fun r => length (filter (fun b => b) r)) m).

(** rows and columns of the full grid or of a region *)
Definition sel_rows (g : grid) (rg : option region) : list nat :=
  match rg with None => seq 0 (g_nlat g) | Some r => rg_lat_idx r end.
Definition sel_cols (g : grid) (rg : option region) : list nat :=
  match rg with None => seq 0 (g_nlon g) | Some r => rg_lon_idx r end.
(** no region, or a region obtained with grid.region[...] *)
Definition valid_region (g : grid) (rg : option region) : Prop :=
  match rg with None => True | Some r => exists arg, region_getitem g arg = Ok r end.

(** documented values of the axis argument *)
Definition documented_axis (ax : axis_arg) : Prop :=
  ax = AxNone \/ ax = AxNum 0 \/ ax = AxNum (-2) \/ ax = AxStr "meridional"
  \/ ax = AxNum 1 \/ ax = AxNum (-1) \/ ax = AxStr "zonal".
Definition result_values (r : mean_result) : list R :=
  match r with MScalar x => [x] | MProfile v => v end.
