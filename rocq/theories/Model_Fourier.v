(** Model of the zonal Fourier diagnostics in diagnostics.py.  Wavenumber
    ranges consist of non-negative integers; complex numbers are pairs. *)
From Coq Require Export String.
From Verif Require Export Base Model_Grid Model_Filter Model_Region.

Definition cplx : Set := (R * R)%type.
Definition angle (n k j : nat) : R := 2 * PI * (INR k * INR j) / INR n.

(** np.fft.fft: X[k] = sum_j x[j] exp(-2 pi i j k / n) *)
Definition dft (x : vec) (k : nat) : cplx :=
  let n := length x in
  (Rsum (tab n (fun j => nth j x 0 * cos (angle n k j))), - Rsum (tab n (fun j => nth j x 0 * sin (angle n k j)))).
(** np.fft.rfft: the coefficients k = 0, ..., n // 2 *)
Definition rfft (x : vec) : res (list cplx) :=
  match x with [] => Err ValueError | _ => Ok (tab (length x / 2 + 1) (dft x)) end.
(** np.fft.irfft with the default number of points n = 2 * (len(X) - 1); the
    imaginary parts of the first and last coefficient have no influence *)
Definition irfft (X : list cplx) : res vec :=
  let n := (2 * (length X - 1))%nat in
  if Nat.eqb n 0 then Err ValueError
  else Ok (tab n (fun j =>
    Rsum (tab (length X) (fun k =>
      let c := if Nat.eqb k 0 || Nat.eqb k (n / 2) then 1 else 2 in
      let (re, im) := nth k X (0, 0) in
      c * (re * cos (angle n k j) - im * sin (angle n k j)))) / INR n)).

(** _restrict_fourier_zonal, diagnostics.py:20-29 *)
Definition keep (kmin kmax : nat) (X : list cplx) : list cplx :=
  tab (length X) (fun k => if Nat.ltb k kmin || Nat.leb (kmax + 1) k then (0, 0) else nth k X (0, 0)).
Definition restrict_row (kmin kmax : nat) (x : vec) : res vec :=
  do xfft <- rfft x; irfft (keep kmin kmax xfft).
Definition restrict_fourier_zonal (field : mat) (kmin kmax : nat) : res mat := res_map (restrict_row kmin kmax) field.

(** scipy.signal.hilbert of one row: the analytic signal *)
Definition hilbert_factor (n k : nat) : R :=
  if Nat.eqb k 0 then 1
  else if Nat.even n then if Nat.ltb k (n / 2) then 2 else if Nat.eqb k (n / 2) then 1 else 0
  else if Nat.ltb k ((n + 1) / 2) then 2 else 0.
Definition hilbert (x : vec) : list cplx :=
  let n := length x in
  tab n (fun j =>
    (Rsum (tab n (fun k => let (re, im) := dft x k in hilbert_factor n k * (re * cos (angle n k j) - im * sin (angle n k j)))) / INR n,
     Rsum (tab n (fun k => let (re, im) := dft x k in hilbert_factor n k * (re * sin (angle n k j) + im * cos (angle n k j)))) / INR n)).
Definition cabs (z : cplx) : R := sqrt (fst z ^ 2 + snd z ^ 2).

(** envelope_hilbert, diagnostics.py:232-248 *)
Definition envelope_hilbert (field : mat) (k_min k_max : nat) : res mat :=
  do x <- restrict_fourier_zonal field k_min k_max;
  Ok (map (fun row => map cabs (hilbert row)) x).

(** np.argmax: the first position of the largest value *)
Fixpoint argmax_from (best : R) (besti i : nat) (l : vec) : nat :=
  match l with
  | [] => besti
  | x :: l => if Rltb best x then argmax_from x i (S i) l else argmax_from best besti (S i) l
  end.
Definition argmax (l : vec) : res nat :=
  match l with [] => Err ValueError | x :: l => Ok (argmax_from x 0 1 l) end.
(** power[k_min:k_max+1] *)
Definition py_slice {A} (l : list A) (a b : nat) : list A := firstn (b - a) (skipn a l).

(** dominant_wavenumber_fourier, diagnostics.py:99-121 *)
Definition power (x : vec) : res vec :=
  do xfft <- rfft x; Ok (map (fun z => cabs z ^ 2) xfft).
Definition dominant_wavenumber_fourier (field : mat) (g : grid) (smooth : option window_arg) (k_min k_max : nat) : res ndarray :=
  do k_dom <- res_map (fun x => do p <- power x; do k <- argmax (py_slice p k_min (k_max + 1)); Ok (INR k)) field;
  match smooth with
  | None => Ok (A1 k_dom)
  | Some w => filter_meridional g (A1 k_dom) w
  end.
