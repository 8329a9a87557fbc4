(** Model of diagnostics.dominant_wavenumber_wavelet.

    Simplifications: the continuous wavelet transform of pywt is an arbitrary
    function of one row and one scale (pywt.cwt(x, scales, wavelet, axis)
    transforms every row for every scale separately), and
    pywt.central_frequency of the wavelet "cmor1.0-1.0" is an arbitrary number
    (1 up to rounding in pywt).  The field has at least one row. *)
From Coq Require Export String.
From Verif Require Export Base Model_Grid Model_Filter Model_Fourier Model_Region.

Record pywt := mkPywt {
  cwt_row : vec -> R -> list cplx;    (* pywt.cwt for one row and one scale *)
  central_frequency : R
}.
(** pywt.scale2frequency *)
Definition scale2frequency (W : pywt) (scale : R) : R := central_frequency W / scale.

(** diagnostics.py:153 *)
Definition scales : vec := map (fun e => 3 * Rpower 2 e) (linspace_end 0 6 120).
(** x[ii:-ii]; x[0:-0] is x[0:0] *)
Definition py_middle {A} (ii : nat) (x : list A) : list A :=
  if Nat.eqb ii 0 then [] else py_slice x ii (length x - ii).

(** diagnostics.py:144-162 *)
Definition wavelet_coef (W : pywt) (x : mat) : list (list (list cplx)) :=
  let x := map (fun r => r ++ r ++ r) x in
  let ii := (ncols x / 3)%nat in
  map (fun s => map (fun r => py_middle ii (cwt_row W r s)) x) scales.
Definition wavelet_power (W : pywt) (x : mat) : list mat :=
  map (map (map (fun z => cabs z ^ 2))) (wavelet_coef W x).
Definition wavenum (W : pywt) (g : grid) : vec := map (fun s => scale2frequency W s * INR (g_nlon g)) scales.
(** np.argmax(power, axis=0) *)
Definition argmax_first_axis (power : list mat) : res (list (list nat)) :=
  let shape0 := nth 0 power [] in
  res_map (fun i =>
    res_map (fun j => argmax (map (fun p => mget p i j) power)) (seq 0 (ncols shape0)))
    (seq 0 (length shape0)).

(** dominant_wavenumber_wavelet, diagnostics.py:124-169 *)
Definition dominant_wavenumber_wavelet (W : pywt) (field : mat) (g : grid) (smooth : option (window_name * R * R)) : res ndarray :=
  do x <- restrict_fourier_zonal field 0 20;
  do k <- argmax_first_axis (wavelet_power W x);
  let k_dom := A2 (map (map (fun n => nth n (wavenum W g) 0)) k) in
  match smooth with
  | None => Ok k_dom
  | Some (window, wlon, wlat) =>
      do k_dom <- filter_meridional g k_dom (ByName window wlat);
      filter_zonal g k_dom (ByName window wlon)
  end.
