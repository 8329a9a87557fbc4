(** Model of the predefined figures in plot.py: summary, wave_activity,
    rwp_diagnostics and waveguides.  A figure is the list of its panels, a panel
    the list of the things drawn in it together with the labelling of its axes.
    Titles, legends, colors, reference lines, colorbars, layout, the limits of
    the wavenumber axis (Model_Plot.v) and the failure of format_time for times
    that are neither numbers nor datetimes (Model_Format.v) are left out. *)
From Coq Require Export String.
From Verif Require Export Base Model_Grid Model_Time Model_Spectral Model_State Model_Plot Model_Quad Model_Falwa Model_Filter Model_Fourier Model_Wavelet Model_Ks Model_Region.

(** fields for plotting: None is NaN *)
Notation omat := (list (list (option R))).
Inductive draw :=
| DLine (x y : list ext)                                                   (* Axes.plot *)
| DContour (filled : bool) (x y : mat) (z : omat) (levels : option vec)    (* Axes.contourf, Axes.contour *)
| DQuiver (x y u v : mat).                                                 (* Axes.quiver *)
Record panel := mkPanel {
  pn_draws : list draw;
  pn_offset : option R;      (* of the longitude labels, plot.py:103-112 *)
  pn_ylim : R * R            (* Axes.set_ylim *)
}.

(** Axes.contour(f)(x, y, z, levels): TypeError if the shapes do not match,
    ValueError if the levels are not increasing or if there are less than two
    levels for filled contours *)
Definition levels_increase (l : vec) : bool := forallb (fun p => Rltb (fst p) (snd p)) (pairs l).
Definition contour (filled : bool) (x y : mat) (z : omat) (levels : option vec) : res (list draw) :=
  if shapedb (length x) (ncols x) z then
    match levels with
    | None => Ok [DContour filled x y z None]
    | Some l =>
        if (filled && Nat.ltb (length l) 2) || negb (levels_increase l) then Err ValueError
        else Ok [DContour filled x y z (Some l)]
    end
  else Err TypeError.
Definition line (x y : vec) : draw := DLine (map Fin x) (map Fin y).
Definition some2 (m : mat) : omat := map (map Some) m.
(** np.roll along longitude of a field with NaN values *)
Definition oroll (lon : vec) (center : R) : omat -> omat := map (zroll None (roll_shift lon center)).

(** configure_lat_y, plot.py:115-124 *)
Definition configure_lat_y (hemisphere : string) : R * R :=
  (if String.eqb hemisphere "N" then 0 else -90, if String.eqb hemisphere "S" then 0 else 90).
Definition by_hemisphere {A} (hemisphere : string) (both one : A) : A := if String.eqb hemisphere "both" then both else one.
(** np.linalg.norm(m) == 0. *)
Definition is_zero (m : mat) : bool := forallb (forallb (fun x => Reqb x 0)) m.
(** np.linspace(np.min(m), np.max(m), n) *)
Definition range_levels (m : mat) (n : nat) : vec := linspace_end (mmin m) (mmax m) n.
(** plot.py:195-198, 307-310: contours unless the field is constant *)
Definition contour_unless_constant (x y : mat) (z : omat) (levels : vec) : res (list draw) :=
  if Req_EM_T (nth 0 levels 0) (last levels 0) then Ok [] else contour false x y z (Some levels).

Section Figures.
Context {K : numtype}.
Variable T : sphfam.

(** summary, plot.py:130-204 *)
Definition summary (s : state K) (hemisphere : string) (center_lon : R) (pv_max v_max : option R) : res (list panel) :=
  let g := s_grid s in
  let (roll, offset) := roll_lon (g_lon g) center_lon in
  let pv := mscale 10000 (s_pv T s) in
  let pv_max := option_map (fun m => m * 10000) pv_max in
  let ylim := configure_lat_y hemisphere in
  let ax11 := [line (map (fun f => f * 10000) (g_fcor g)) (g_lat g);
               line (map vmean (mscale 10000 (s_vorticity T s))) (g_lat g);
               line (map vmean pv) (g_lat g)] in
  do pv_levels <- symmetric_levels (concat pv) (by_hemisphere hemisphere 11 17)%nat pv_max;
  do pvc <- contour true (g_lon2 g) (g_lat2 g) (some2 (roll pv)) (Some pv_levels);
  let n_vectors := by_hemisphere hemisphere 13%Z 21%Z in
  do vectors <-
    (if is_zero (s_u T s) && is_zero (s_v T s) then Ok []
     else do (x, y, u, v) <- reduce_vectors (g_lon2 g) (g_lat2 g) (s_u T s) (s_v T s) n_vectors;
          Ok [DQuiver x y u v]);
  let ax21 := [line (map vmean (s_u T s)) (g_lat g)] in
  do v_levels <- symmetric_levels (concat (s_v T s)) 10 v_max;
  do vc <- contour true (g_lon2 g) (g_lat2 g) (some2 (roll (s_v T s))) (Some v_levels);
  let psi := s_streamfunction T s in
  let psi_levels := range_levels psi (by_hemisphere hemisphere 10 14)%nat in
  do psic <- contour_unless_constant (g_lon2 g) (g_lat2 g) (some2 (roll psi)) psi_levels;
  Ok [mkPanel ax11 None ylim; mkPanel (pvc ++ vectors) (Some offset) ylim;
      mkPanel ax21 None ylim; mkPanel (vc ++ psic) (Some offset) ylim].

(** wave_activity, plot.py:207-263 *)
Definition nan_line (x : list (option R)) (y : vec) : draw := DLine (map (fun v => match v with Some r => Fin r | None => NaN end) x) (map Fin y).
Definition wave_activity (s : state K) (hemisphere : string) (center_lon : R) : res (list panel) :=
  let g := s_grid s in
  let (roll, offset) := roll_lon (g_lon g) center_lon in
  let pv := mscale 10000 (s_pv T s) in
  let ylim := configure_lat_y hemisphere in
  do zl <- zonalize g (s_pv T s) LNone "sptrapz";
  let zlpv := map (fun q => 10000 * q) zl in
  let ax11 := [line zlpv (g_lat g); line (map vmean pv) (g_lat g)] in
  let devpv := map2 (fun row q => map (fun x => x - q) row) pv zlpv in
  do dev_levels <- symmetric_levels (concat devpv) 10 None;
  do devpvc <- contour true (g_lon2 g) (g_lat2 g) (some2 (roll devpv)) (Some dev_levels);
  let pv_levels := removelast (tl (range_levels pv (by_hemisphere hemisphere 10 14)%nat)) in
  do pvc <- contour false (g_lon2 g) (g_lat2 g) (some2 (roll pv)) (Some pv_levels);
  do fw <- state_fawa g (s_pv T s);
  do lwa <- falwa g (s_pv T s) LNone "sptrapz";
  do wac <- contour true (g_lon2 g) (g_lat2 g) (oroll (g_lon g) center_lon lwa) None;
  do pvc2 <- contour false (g_lon2 g) (g_lat2 g) (some2 (roll pv)) (Some pv_levels);
  Ok [mkPanel ax11 None ylim; mkPanel (devpvc ++ pvc) (Some offset) ylim;
      mkPanel [nan_line fw (g_lat g)] None ylim; mkPanel (wac ++ pvc2) (Some offset) ylim].

(** rwp_diagnostics, plot.py:266-324.  If FALWA contains NaN, the model stops
    with NotANumber while the code carries on with fields that contain NaN. *)
Fixpoint finite_rows (m : omat) : option mat :=
  match m with
  | [] => Some []
  | r :: m => match somes r, finite_rows m with Some a, Some b => Some (a :: b) | _, _ => None end
  end.
Definition rwp_diagnostics (W : pywt) (s : state K) (hemisphere : string) (center_lon : R) (v_max rwp_max : option R) : res (list panel) :=
  let g := s_grid s in
  let (roll, offset) := roll_lon (g_lon g) center_lon in
  let ylim := configure_lat_y hemisphere in
  let v := s_v T s in
  do v_levels <- symmetric_levels (concat v) 10 v_max;
  do vc <- contour true (g_lon2 g) (g_lat2 g) (some2 (roll v)) (Some v_levels);
  do dwn <- dominant_wavenumber_wavelet W v g (Some (Hann, 40, 10));
  do dwn <- match dwn with A2 d => Ok d | _ => Err ValueError end;
  do dwnc <- (if Req_EM_T (mmin dwn) (mmax dwn) then Ok []
              else contour false (g_lon2 g) (g_lat2 g) (some2 (roll dwn)) (Some (map INR (seq 1 10))));
  do env <- envelope_hilbert v 2 10;
  do lwa <- falwa g (s_pv T s) LNone "sptrapz";
  do lwa <- match finite_rows lwa with Some m => Ok m | None => Err NotANumber end;
  do ffalwa <- filter_by_wavenumber lwa (A2 (mscale 2 dwn));
  let rwp_max := match rwp_max with Some m => m | None => Rmax (mmax env) (mmax ffalwa) end in
  let rwp_levels := linspace_end 0 rwp_max 6 in
  do envc <- contour true (g_lon2 g) (g_lat2 g) (some2 (roll env)) (Some rwp_levels);
  let psi := s_streamfunction T s in
  let psi_levels := range_levels psi (by_hemisphere hemisphere 10 14)%nat in
  do psic <- contour_unless_constant (g_lon2 g) (g_lat2 g) (some2 (roll psi)) psi_levels;
  do lwac <- contour true (g_lon2 g) (g_lat2 g) (some2 (roll ffalwa)) (Some rwp_levels);
  let pv := s_pv T s in
  let pv_levels := removelast (tl (range_levels pv (by_hemisphere hemisphere 10 14)%nat)) in
  do pvc <- contour false (g_lon2 g) (g_lat2 g) (some2 (roll pv)) (Some pv_levels);
  Ok [mkPanel (vc ++ dwnc) (Some offset) ylim; mkPanel (envc ++ psic) (Some offset) ylim; mkPanel (lwac ++ pvc) (Some offset) ylim].

(** waveguides, plot.py:327-385 *)
Inductive k_arg := KNone | KNumber (k : ext) | KMany (ks : list ext).
Definition wg_coords (guides : list (ext * ext)) : list ext := flat_map (fun '(x, y) => [NaN; x; y]) guides.
Definition waveguides (s : state K) (k_waveguides : k_arg) (hemisphere : string) : res (list panel) :=
  let g := s_grid s in
  let ylim := configure_lat_y hemisphere in
  let ax1 := [line (map vmean (s_u T s)) (g_lat g)] in
  do ks <- state_stationary_wavenumber T s;
  do ks <- match ks with KsComplex z => Ok z | KsReal _ => Err TypeError end;
  let k_waveguides := match k_waveguides with KNone => [] | KNumber k => [k] | KMany l => l end in
  do guides <- res_map (fun k =>
      do wg <- extract_ks_waveguides g ks (k, Fin 0);
      let c := wg_coords wg in
      Ok (DLine (map (fun _ => k) c) c)) k_waveguides;
  Ok [mkPanel ax1 None ylim;
      mkPanel (guides ++ [DLine (map real_minus_imag ks) (map Fin (g_lat g))]) None ylim].
End Figures.
