(** The verification of the coordinates of a dataset and the construction of the
    grid (io.py:261-288) in IEEE binary64: one-dimensional coordinates of doubles. *)
From Coq Require Import List Bool.
From Verif Require Import Base Model_Float Model_FloatGrid Model_FloatPick.
Import ListNotations.

(** np.diff *)
Definition diff_b64 (v : list b64) : list b64 := map (fun p => b64_sub (snd p) (fst p)) (pairs v).

(** io.py:266-271: the spacing of the longitudes *)
Definition check_lon_b64 (lon : list b64) : res b64 :=
  passert (Nat.ltb 0 (length lon)) (
  match diff_b64 lon with
  | [] => Err IndexError
  | dlon :: _ =>
      passert (forallb (fun d => isclose_b64 dlon d) (diff_b64 lon)) (
      passert (SFltb (b64_of_Z 0) dlon) (
      passert (isclose_b64 (b64_sub (last lon S754_nan) (hd S754_nan lon)) (b64_sub (b64_of_Z 360) dlon))
        (Ok dlon)))
  end).
(** io.py:277-284 *)
Definition check_lat_b64 (lat : list b64) (nlon : nat) (dlon : b64) : res unit :=
  passert (Nat.ltb 0 (length lat)) (
  passert (Nat.eqb (length lat - 1) (Nat.div nlon 2)) (
  match diff_b64 lat with
  | [] => Err IndexError
  | dlat :: _ =>
      passert (forallb (fun d => isclose_b64 dlat d) (diff_b64 lat)) (
      passert (SFltb dlat (b64_of_Z 0)) (
      passert (isclose_b64 dlat (SFopp dlon)) (Ok tt)))
  end)).
(** io.py:288: the numbers of longitudes and latitudes of Grid(resolution=dlon) *)
Definition dataset_shape_b64 (lon lat : list b64) : res (Z * Z) :=
  do dlon <- check_lon_b64 lon;
  do _ <- check_lat_b64 lat (length lon) dlon;
  match nlon_b64 dlon, nlat_b64 dlon with
  | Some nlon, Some nlat => Ok (nlon, nlat)
  | _, _ => Err ValueError
  end.
