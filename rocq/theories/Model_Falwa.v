(** Model of finite-amplitude (local) wave activity: diagnostics.falwa,
    diagnostics.fawa and State.fawa. *)
From Coq Require Export String.
From Verif Require Export Base Model_Grid Model_Quad Model_Region.

(** np.cos(np.deg2rad(y)).  The doubles closest to 90 and -90 degrees in
    radians are not zeros of the cosine: NumPy returns 6.123233995736766e-17
    there, so no division by zero takes place. *)
Definition cos_pole : R := 6123233995736766 / 10 ^ 32.
Definition np_cosd (y : R) : R :=
  if Req_EM_T (cos (deg2rad y)) 0 then cos_pole else cos (deg2rad y).

(** 0.5 * (grid.lat[:-1] + grid.lat[1:]), diagnostics.py:82 *)
Definition midpoints (l : vec) : vec := map (fun p => / 2 * (fst p + snd p)) (pairs l).

(** diagnostics.py:78-83: the background PV profile *)
Definition falwa_background (g : grid) (pv : mat) (levels : levels_arg) (qd : string) : res (vec * vec) :=
  do (qq, yy) <- zonalize_contours g pv levels qd;
  if is_boxcount qd then
    let mid := midpoints (g_lat g) in
    do qq <- interp1d_1d qq yy (mmax pv, mmin pv) mid;
    Ok (qq, mid)
  else Ok (qq, yy).

(** diagnostics.py:86-90 for one contour *)
Definition falwa_row (g : grid) (pv : mat) (qd : string) (q y : R) : res vec :=
  let a := mmap (fun x => x - q) pv in
  do q_int <- quad_meridional g (A2 a) (Some a) qd;
  do y_int <- quad_meridional g (A2 a) (Some (mmap (fun l => l - y) (g_lat2 g))) qd;
  Ok (map (fun x => x / np_cosd y) (vsub q_int y_int)).

(** falwa with interpolate=False, diagnostics.py:49-93, for PV fields given with
    their grid (a State provides both) *)
Definition falwa_contours (g : grid) (pv : mat) (levels : levels_arg) (qd : string) : res (mat * vec) :=
  do (qq, yy) <- falwa_background g pv levels qd;
  do rows <- res_map (fun p => falwa_row g pv qd (fst p) (snd p)) (combine qq yy);
  Ok (rows, yy).
(** falwa with interpolate=True, diagnostics.py:94-96; None stands for NaN *)
Definition falwa (g : grid) (pv : mat) (levels : levels_arg) (qd : string) : res (list (list (option R))) :=
  do (rows, yy) <- falwa_contours g pv levels qd;
  interpolate_meridional_2d g rows yy (0, 0).

(** fawa, diagnostics.py:32-46 *)
Definition fawa_contours (g : grid) (pv : mat) (levels : levels_arg) (qd : string) : res (vec * vec) :=
  do (lwa, yy) <- falwa_contours g pv levels qd;
  Ok (map vmean lwa, yy).
Definition fawa (g : grid) (pv : mat) (levels : levels_arg) (qd : string) : res vec :=
  do (f, yy) <- fawa_contours g pv levels qd;
  interpolate_meridional_1d g f yy (0, 0).

(** State.fawa, state.py:237-245: the zonal mean of State.falwa, state.py:247-253 *)
Fixpoint somes {A} (l : list (option A)) : option (list A) :=
  match l with
  | [] => Some []
  | Some x :: l => match somes l with Some t => Some (x :: t) | None => None end
  | None :: _ => None
  end.
Definition nan_mean (l : list (option R)) : option R := option_map vmean (somes l).
Definition mean_falwa (g : grid) (pv : mat) (levels : levels_arg) (qd : string) : res (list (option R)) :=
  do f <- falwa g pv levels qd; Ok (map nan_mean f).
Definition state_fawa (g : grid) (pv : mat) : res (list (option R)) := mean_falwa g pv LNone "sptrapz".
