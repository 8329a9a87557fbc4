(** Model of the data processing in plot.py: reduce_vectors, hovmoellerify,
    roll_lon, symmetric_levels, configure_lon_x and the wavenumber ticks of
    waveguides.  Drawing is not modelled. *)
From Coq Require Export String.
From Verif Require Export Base Model_Grid Model_Time Model_State.

(** l[start::step] for step >= 1 *)
Fixpoint slice_from {A} (fuel start step : nat) (l : list A) : list A :=
  match fuel with
  | O => []
  | S fuel =>
      match nth_error l start with
      | Some x => x :: slice_from fuel (start + step) step l
      | None => []
      end
  end.
Definition np_slice {A} (start step : nat) (l : list A) : list A := slice_from (length l) start step l.
(** a[slicer] with the same slice on both axes *)
Definition slice2 {A} (start step : nat) (m : list (list A)) : list (list A) :=
  map (np_slice start step) (np_slice start step m).

(** reduce_vectors, plot.py:17-33, for an integer ny *)
Definition spacing_of (rows : nat) (ny : Z) : nat := Z.to_nat (Z.max (Z.of_nat rows / ny) 1).
Definition reduce_vectors (x y u v : mat) (ny : Z) : res (mat * mat * mat * mat) :=
  if (ny =? 0)%Z then Err ZeroDivisionError
  else
    let spacing := spacing_of (length y) ny in
    let f := slice2 (spacing / 2) spacing in
    Ok (f x, f y, f u, f v).

(** hovmoellerify, plot.py:36-60, for functions returning 1D arrays *)
Inductive hovmoeller (K : numtype) :=
| TimeOnY (lon : vec) (times : list (pyval K)) (field : mat)
| TimeOnX (times : list (pyval K)) (lat : vec) (field : mat).
Arguments TimeOnY {K}. Arguments TimeOnX {K}.
Definition np_stack1 (l : list vec) : res mat :=
  match l with
  | [] => Err ValueError
  | a :: _ => if forallb (fun b => Nat.eqb (length b) (length a)) l then Ok l else Err ValueError
  end.
Definition transpose (nc : nat) (m : mat) : mat := tab nc (mcol m).
Definition hovmoellerify {K} (states : list (state K)) (f : state K -> res vec) : res (hovmoeller K) :=
  match states with
  | [] => Err ValueError
  | s0 :: _ =>
      let grid := s_grid s0 in
      let times := map s_time states in
      do fields <- res_map f states;
      let size := length (hd [] fields) in
      if Nat.eqb size (g_nlon grid) then
        do field <- np_stack1 fields; Ok (TimeOnY (g_lon grid) times field)
      else if Nat.eqb size (g_nlat grid) then
        do field <- np_stack1 fields; Ok (TimeOnX times (g_lat grid) (transpose size field))
      else Err ValueError
  end.

(** x % m for real numbers, m > 0 *)
Definition rmod (x m : R) : R := x - m * IZR (Int_part (x / m)).
(** np.argmin: the first position of the smallest value *)
Fixpoint argmin_from (best : R) (besti i : nat) (l : vec) : nat :=
  match l with
  | [] => besti
  | x :: l => if Rltb x best then argmin_from x i (S i) l else argmin_from best besti (S i) l
  end.
Definition argmin (l : vec) : nat := match l with [] => 0%nat | x :: l => argmin_from x 0 1 l end.
(** np.roll(l, shift) for any integer shift: out[i] = l[(i - shift) mod n] *)
Definition zroll {A} (d : A) (shift : Z) (l : list A) : list A :=
  tab (length l) (fun i => nth (Z.to_nat ((Z.of_nat i - shift) mod Z.of_nat (length l))) l d).
(** Python indexing with a possibly negative index *)
Definition py_nth (l : vec) (i : Z) : R :=
  nth (Z.to_nat (if (i <? 0)%Z then i + Z.of_nat (length l) else i)) l 0.

(** roll_lon, plot.py:63-80: the shift, the roll function for fields and the
    label offset *)
Definition roll_shift (lon : vec) (center : R) : Z :=
  let center := rmod center 360 in
  let cur_mid := Z.of_nat (length lon / 2) in
  let new_mid := Z.of_nat (argmin (map (fun x => Rabs (x - center)) lon)) in
  (cur_mid - new_mid)%Z.
Definition roll_lon (lon : vec) (center : R) : (mat -> mat) * R :=
  let shift := roll_shift lon center in
  (map (zroll 0 shift), py_nth lon shift).
(** configure_lon_x, plot.py:103-112: the number in the label at position x *)
Definition lon_label (offset x : R) : R := rmod (x - offset) 360.

(** symmetric_levels, plot.py:85-100 *)
Definition symmetric_levels (x : vec) (n : nat) (ext : option R) : res vec :=
  do ext <- match ext with
            | Some e => Ok e
            | None => match x with [] => Err ValueError | _ => Ok (Rmax (Rabs (vmin x)) (Rabs (vmax x))) end
            end;
  if Req_EM_T ext 0 then Ok [-1; 1]
  else Ok (linspace_end (- ext) ext n).

(** np.ceil *)
Definition ceil (x : R) : Z := (- Int_part (- x))%Z.
(** ticks of the wavenumber axis, plot.py:375-379, for axis limits lo and hi;
    all values are integers from line 377 on.  np.arange(a, b, s) has
    ceil((b - a) / s) elements. *)
Definition arange (a b s : Z) : list Z :=
  map (fun k => (a + Z.of_nat k * s)%Z) (seq 0 (Z.to_nat (- (- (b - a) / s)))).
Definition wavenumber_ticks (lo hi : R) : res (list Z) :=
  let xmin := ceil lo in
  let xmax := ceil hi in
  let step := ceil (IZR (xmax - xmin) / 10) in
  if (step =? 0)%Z then Err ValueError
  else
    let xmin := (xmin + xmin mod step)%Z in
    Ok (arange xmin xmax step).
(** the limits, plot.py:370-373 *)
Definition clip_limits (bounds lim : R * R) : R * R := (Rmax (fst bounds) (fst lim), Rmin (snd bounds) (snd lim)).
