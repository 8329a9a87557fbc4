(** Model of the filters: Grid.get_filter_window, filter_meridional and
    filter_zonal, and diagnostics.filter_by_wavenumber. *)
From Coq Require Export String.
From Verif Require Export Base Model_Grid Model_Format Model_Time Model_Spectral Model_State Model_Init Model_Region.

(** scipy.signal.get_window(window, M, fftbins=False) for the window names
    boxcar, triang and hann; other names are not modelled.  SciPy raises
    ValueError for negative M and returns np.ones(M) for M <= 1. *)
Inductive window_name := Boxcar | Triang | Hann.
(** triang for odd M: n = arange(1, (M + 1) // 2 + 1); w = 2 * n / (M + 1);
    concatenate [w, w[-2::-1]] *)
Definition triang_window (M : nat) : vec :=
  let w := tab ((M + 1) / 2) (fun n => 2 * INR (n + 1) / INR (M + 1)) in
  w ++ rev (removelast w).
(** hann: fac = linspace(-pi, pi, M); w = 0.5 + 0.5 * cos(fac) *)
Definition hann_window (M : nat) : vec :=
  if Nat.leb M 1 then tab M (fun _ => 1)
  else map (fun fac => 1 / 2 + 1 / 2 * cos fac) (linspace_end (- PI) PI M).
Definition get_window (w : window_name) (M : Z) : res vec :=
  if (M <? 0)%Z then Err ValueError
  else
    let M := Z.to_nat M in
    if Nat.leb M 1 then Ok (tab M (fun _ => 1))
    else Ok match w with Boxcar => tab M (fun _ => 1) | Triang => triang_window M | Hann => hann_window M end.
(** window / np.sum(window) *)
Definition normalize (w : vec) : vec := map (fun x => x / Rsum w) w.

(** Grid.get_filter_window, grid.py:701-719 *)
Definition get_filter_window (g : grid) (window : window_name) (width : R) : res vec :=
  let width := round_even (width / g_dlon g) in
  let width := if (width mod 2 =? 1)%Z then width else (width + 1)%Z in
  do window <- get_window window width;
  Ok (normalize window).

(** scipy.ndimage.convolve(f, w, mode) of 1D arrays with a non-empty window:
    out[i] = sum_m w[m] f[i + len(w) // 2 - m] where indices outside of f are
    mapped to it by the boundary mode *)
Definition wrap_index (n k : Z) : Z := (k mod n)%Z.
Definition reflect_index (n k : Z) : Z :=
  let m := (k mod (2 * n))%Z in if (m <? n)%Z then m else (2 * n - 1 - m)%Z.
Definition znth {A} (d : A) (l : list A) (k : Z) : A := nth (Z.to_nat k) l d.
Definition convolve (mode : Z -> Z -> Z) (f w : vec) : vec :=
  tab (length f) (fun i =>
    Rsum (tab (length w) (fun m =>
      nth m w 0 * znth 0 f (mode (Z.of_nat (length f)) (Z.of_nat i + Z.of_nat (length w / 2) - Z.of_nat m)%Z)))).
(** the same with window[:,None] on a 2D array with nc columns *)
Definition convolve_columns (mode : Z -> Z -> Z) (nc : nat) (f : mat) (w : vec) : mat :=
  tab (length f) (fun i => tab nc (fun j =>
    Rsum (tab (length w) (fun m =>
      nth m w 0 * nth j (znth [] f (mode (Z.of_nat (length f)) (Z.of_nat i + Z.of_nat (length w / 2) - Z.of_nat m)%Z)) 0)))).

(** The window argument of the filters: a name with a width, or an array
    without width.  The other combinations fail inside of SciPy. *)
Inductive window_arg := ByName (w : window_name) (width : R) | ByArray (w : vec).
Definition window_of (g : grid) (a : window_arg) : res vec :=
  match a with ByName w width => get_filter_window g w width | ByArray w => Ok w end.

(** Grid.filter_meridional, grid.py:721-746 *)
Definition filter_meridional (g : grid) (field : ndarray) (window : window_arg) : res ndarray :=
  do window <- window_of g window;
  match field with
  | A1 f => passert (Nat.eqb (length f) (g_nlat g)) (Ok (A1 (convolve reflect_index f window)))
  | A2 f => passert (Nat.eqb (length f) (g_nlat g)) (Ok (A2 (convolve_columns reflect_index (ncols f) f window)))
  | AOther => Err ValueError
  end.

(** Grid.filter_zonal, grid.py:749-774 *)
Definition filter_zonal (g : grid) (field : ndarray) (window : window_arg) : res ndarray :=
  do window <- window_of g window;
  match field with
  | A1 f => passert (Nat.eqb (length f) (g_nlon g)) (Ok (A1 (convolve wrap_index f window)))
  | A2 f => passert (Nat.eqb (ncols f) (g_nlon g)) (Ok (A2 (map (fun r => convolve wrap_index r window) f)))
  | AOther => Err ValueError
  end.

(** scipy.signal.convolve2d(f, w[None,:], mode="same", boundary="wrap"): the
    full convolution starting at (len(w) - 1) // 2 *)
Definition convolve2d_same_wrap (f : mat) (w : vec) : mat :=
  map (fun r => tab (length r) (fun j =>
    Rsum (tab (length w) (fun m =>
      nth m w 0 * znth 0 r (wrap_index (Z.of_nat (length r)) (Z.of_nat j + Z.of_nat ((length w - 1) / 2) - Z.of_nat m)%Z))))) f.

(** diagnostics.filter_by_wavenumber, diagnostics.py:172-229, for a 2D field.
    A 2D wavenumber must have the shape of the field as documented (NumPy would
    also broadcast from a single row or column). *)
Definition clip (x lo hi : R) : R := Rmin (Rmax x lo) hi.
Definition hann_widths (nlon : nat) (wavenumber : mat) : list (list nat) :=
  map (map (fun k => Z.to_nat (Int_part (INR nlon / clip k 1 (INR nlon / 2)) * 2 + 1))) wavenumber.
Definition list_max0 (l : list nat) : nat := fold_right Nat.max 0%nat l.
Definition filter_by_wavenumber (field : mat) (wavenumber : ndarray) : res mat :=
  let nlon := ncols field in
  let nlat := length field in
  do wavenumber <-
    match wavenumber with
    | A1 k => passert (Nat.eqb (length k) nlat) (Ok (np_reshape nlat nlon (np_repeat k nlon)))
    | A2 k => if shapedb nlat nlon k then Ok k else Err IndexError
    | AOther => Err IndexError
    end;
  let widths := hann_widths nlon wavenumber in
  let used := concat widths in
  match used with
  | [] => Err ValueError
  | _ =>
      let convs := map (fun n =>
          let width := (2 * n + 1)%nat in
          if existsb (Nat.eqb width) used then convolve2d_same_wrap field (normalize (hann_window width))
          else np_zeros_like field)
        (seq 0 ((list_max0 used + 1) / 2)) in
      Ok (tab nlat (fun i => tab nlon (fun j =>
        let width := nth j (nth i widths []) 0%nat in
        mget (nth ((width - 1) / 2) convs []) i j)))
  end.
