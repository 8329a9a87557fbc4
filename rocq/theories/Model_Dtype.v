(** Arrays of integers as input.  Two functions of NumPy and SciPy give their
    result the data type of their input and cast computed values to it:
    scipy.ndimage.convolve (grid.py:741, 744, 769, 772: the output array has the
    type of the field) and np.pad (grid.py:688: the pole values are assigned to an
    array of the type of the field).  Both casts truncate toward zero.
    Everywhere else floats result from operations with floats.  Integers that do
    not fit into their type are not covered. *)
From Coq Require Export String.
From Verif Require Export Base Model_Grid Model_Region Model_Quad Model_Filter.

Inductive dtype := DFloat | DInt.
Definition cast (d : dtype) (x : R) : R :=
  match d with DFloat => x | DInt => IZR (py_int x) end.
Definition cast_array (d : dtype) (a : ndarray) : ndarray :=
  match a with A1 v => A1 (map (cast d) v) | A2 m => A2 (mmap (cast d) m) | AOther => AOther end.

(** Grid.filter_meridional and filter_zonal, grid.py:721-774, of an array of the
    type d *)
Definition filter_meridional_of (d : dtype) (g : grid) (field : ndarray) (window : window_arg) : res ndarray :=
  do out <- filter_meridional g field window; Ok (cast_array d out).
Definition filter_zonal_of (d : dtype) (g : grid) (field : ndarray) (window : window_arg) : res ndarray :=
  do out <- filter_zonal g field window; Ok (cast_array d out).

(** np.pad in Grid.interp1d_meridional, grid.py:688 *)
Definition cast_poles (d : dtype) (pole : R * R) : R * R := (cast d (fst pole), cast d (snd pole)).
(** Grid.interpolate_meridional, grid.py:691-697, of an array of the type d *)
Definition interpolate_1d_of (d : dtype) (g : grid) (field lat : vec) (pole : R * R) : res vec :=
  interpolate_meridional_1d g field lat (cast_poles d pole).
Definition interpolate_2d_of (d : dtype) (g : grid) (field : mat) (lat : vec) (pole : R * R) :=
  interpolate_meridional_2d g field lat (cast_poles d pole).
(** Grid.zonalize, grid.py:599-662, with an array of levels of the type d *)
Definition zonalize_of (d : dtype) (g : grid) (field : mat) (levels : vec) (qd : string) : res vec :=
  do qy <- zonalize_contours g field (LArr levels) qd;
  interpolate_1d_of d g (fst qy) (snd qy) (mmax field, mmin field).
