(** The coordinates of Grid.__init__ (grid.py:54-55) and the selection of
    coordinate ranges (grid.py:818-830, 848-863) in IEEE binary64.

    np.linspace of NumPy: delta = stop - start, step = delta / div with
    div = num - 1 or num, y = arange(num) * step + start, and with endpoint=True
    the last element is overwritten with stop.  For div = 0 it computes
    arange(num) * delta + start.  (Its separate branch for a step that underflows
    to zero is not modelled; the steps here are 360/num and 180/(num - 1).) *)
From Coq Require Import List Bool.
From Verif Require Import Base Model_Float.
Import ListNotations.

Definition linspace_b64 (start stop : b64) (num : nat) (endpoint : bool) : list b64 :=
  let div := if endpoint then (num - 1)%nat else num in
  let delta := b64_sub stop start in
  let step := if Nat.eqb div 0 then delta else b64_div delta (b64_of_Z (Z.of_nat div)) in
  map (fun i => if endpoint && Nat.ltb 1 num && Nat.eqb i (num - 1) then stop
                else b64_add (b64_mul (b64_of_Z (Z.of_nat i)) step) start) (seq 0 num).

(** grid.py:54, 55 *)
Definition lon_b64 (nlon : nat) : list b64 := linspace_b64 (b64_of_Z 0) (b64_of_Z 360) nlon false.
Definition lat_b64 (nlat : nat) : list b64 := linspace_b64 (b64_of_Z 90) (b64_of_Z (-90)) nlat true.

(** indices[mask] for indices = np.arange(len(coord)) *)
Definition pick_b64 (coord : list b64) (p : b64 -> bool) : list nat :=
  filter (fun i => p (nth i coord S754_nan)) (seq 0 (length coord)).
(** the Python builtins min(a, b) and max(a, b) *)
Definition py_min_b64 (a b : b64) : b64 := if SFltb b a then b else a.
Definition py_max_b64 (a b : b64) : b64 := if SFltb a b then b else a.

(** grid.py:821-830 *)
Definition lat_range_b64 (lat : list b64) (lo hi : option b64) : list nat :=
  match lo, hi with
  | None, None => seq 0 (length lat)
  | None, Some h => pick_b64 lat (fun y => SFleb y h)
  | Some l, None => pick_b64 lat (fun y => SFleb l y)
  | Some l, Some h => pick_b64 lat (fun y => SFleb (py_min_b64 l h) y && SFleb y (py_max_b64 l h))
  end.
(** grid.py:851-863 *)
Definition lon_range_b64 (lon : list b64) (lo hi : option b64) : list nat :=
  match lo, hi with
  | None, None => seq 0 (length lon)
  | None, Some h => pick_b64 lon (fun x => SFleb x h)
  | Some l, None => pick_b64 lon (fun x => SFleb l x)
  | Some l, Some h =>
      if SFltb h l
      then roll (pick_b64 lon (fun x => SFleb x h || SFleb l x)) (length (pick_b64 lon (fun x => SFleb l x)))
      else pick_b64 lon (fun x => SFleb l x && SFleb x h)
  end.
(** grid.py:805-808: the special values "N" and "S" *)
Definition hemisphere_b64 (lat : list b64) (north : bool) : list nat :=
  if north then lat_range_b64 lat (Some (b64_of_Z 0)) (Some (b64_of_Z 90))
  else lat_range_b64 lat (Some (b64_of_Z (-90))) (Some (b64_of_Z 0)).
