(** Model of the wavenumber_range argument of the Fourier diagnostics in
    diagnostics.py: a sequence of Python numbers, which are used as bounds of
    slices.  Model_Fourier has the same functions for two natural numbers.
    Sequences are lists; a range without a length (TypeError) is not modelled. *)
From Coq Require Export String.
From Verif Require Export Base Model_Grid Model_Filter Model_Fourier Model_Region.

Inductive wnum : Set := WInt (k : Z) | WFloat (x : R).
(** k_max+1 *)
Definition wnum_incr (w : wnum) : wnum := match w with WInt k => WInt (k + 1) | WFloat x => WFloat (x + 1) end.
(** operator.index: slices only take integers *)
Definition as_index (w : wnum) : res Z := match w with WInt k => Ok k | WFloat _ => Err TypeError end.
(** the position in a sequence of length n which a bound of a slice refers to:
    negative bounds count from the end, bounds outside of the sequence are moved
    to its ends *)
Definition slice_pos (n : nat) (k : Z) : nat :=
  if (k <? 0)%Z then Z.to_nat (Z.max 0 (k + Z.of_nat n)) else Z.to_nat (Z.min k (Z.of_nat n)).

(** xfft[:,:a] = 0. and xfft[:,b:] = 0. for one row *)
Definition clear_to (a : Z) (X : list cplx) : list cplx :=
  tab (length X) (fun k => if Nat.ltb k (slice_pos (length X) a) then (0, 0) else nth k X (0, 0)).
Definition clear_from (b : Z) (X : list cplx) : list cplx :=
  tab (length X) (fun k => if Nat.ltb k (slice_pos (length X) b) then nth k X (0, 0) else (0, 0)).

(** _restrict_fourier_zonal, diagnostics.py:20-29 *)
Definition restrict_fourier_range (field : mat) (kmin kmax : wnum) : res mat :=
  do xfft <- res_map rfft field;
  do a <- as_index kmin;
  do b <- as_index (wnum_incr kmax);
  res_map (fun X => irfft (clear_from b (clear_to a X))) xfft.

(** assert len(wavenumber_range) == 2; k_min, k_max = wavenumber_range *)
Definition unpack_range (r : list wnum) : res (wnum * wnum) :=
  match r with [k_min; k_max] => Ok (k_min, k_max) | _ => Err AssertionError end.

(** envelope_hilbert, diagnostics.py:232-248 *)
Definition envelope_hilbert_range (field : mat) (wavenumber_range : list wnum) : res mat :=
  do kk <- unpack_range wavenumber_range;
  do x <- restrict_fourier_range field (fst kk) (snd kk);
  Ok (map (fun row => map cabs (hilbert row)) x).

(** dominant_wavenumber_fourier, diagnostics.py:99-121 *)
Definition dominant_wavenumber_range (field : mat) (g : grid) (smooth : option window_arg) (wavenumber_range : list wnum) : res ndarray :=
  do kk <- unpack_range wavenumber_range;
  do p <- res_map power field;
  do a <- as_index (fst kk);
  do b <- as_index (wnum_incr (snd kk));
  do k_dom <- res_map (fun x => do k <- argmax (py_slice x (slice_pos (length x) a) (slice_pos (length x) b)); Ok (INR k)) p;
  match smooth with
  | None => Ok (A1 k_dom)
  | Some w => filter_meridional g (A1 k_dom) w
  end.
