(** Model of State (src/barotropic/state.py:13-372): constructors, operators and
    field accessors.  [state] holds what determines a State object; the lazily
    filled slots are modelled in Model_Lazy.v, where they are shown to be
    unobservable. *)
From Coq Require Export String.
From Verif Require Export Base Model_Grid Model_Time Model_Spectral.

Record state (K : numtype) := mkState {
  s_grid : grid;
  s_time : pyval K;
  s_pvs : spec       (* _pv_spectral *)
}.
Arguments mkState {K}.
Arguments s_grid {K}.
Arguments s_time {K}.
Arguments s_pvs {K}.

(** State.__init__, state.py:48-59.  If neither pv nor pv_spectral is given the
    constructor succeeds but every field access hands None to pyspharm and fails;
    the model reports that failure at construction. *)
Definition state_init {K} (T : sphfam) (g : grid) (time : pyval K)
    (pv : option mat) (pv_spectral : option spec) : res (state K) :=
  match pv, pv_spectral with
  | Some _, Some _ => Err AssertionError
  | Some f, None => Ok (mkState g time (to_spectral T g f))
  | None, Some x => Ok (mkState g time x)
  | None, None => Err AttributeError
  end.

(** State.from_wind, state.py:64-78; State.from_vorticity, state.py:80-93 *)
Definition state_from_wind {K} (T : sphfam) (g : grid) (time : pyval K) (u v : mat) : res (state K) :=
  state_init T g time (Some (madd (g_fcor2 g) (vorticity T g u v))) None.
Definition state_from_vorticity {K} (T : sphfam) (g : grid) (time : pyval K) (vo : mat) : res (state K) :=
  state_init T g time (Some (madd (g_fcor2 g) vo)) None.

(** Field accessors *)
(** state.py:140-160 *)
Definition s_pv {K} (T : sphfam) (s : state K) : mat := to_grid T (s_grid s) (s_pvs s).
(** state.py:195-210 *)
Definition s_vorticity {K} (T : sphfam) (s : state K) : mat := msub (s_pv T s) (g_fcor2 (s_grid s)).
Definition s_vorticity_spectral {K} (T : sphfam) (s : state K) : spec :=
  ssub (s_pvs s) (fcor2_spectral T (s_grid s)).
(** state.py:162-180 *)
Definition s_invert_pv {K} (T : sphfam) (s : state K) : mat * mat :=
  let vo := s_vorticity_spectral T s in
  wind T (s_grid s) (Spectral vo) (Spectral (szeros_like vo)).
Definition s_u {K} (T : sphfam) (s : state K) : mat := fst (s_invert_pv T s).
Definition s_v {K} (T : sphfam) (s : state K) : mat := snd (s_invert_pv T s).
(** state.py:182-188 *)
Definition s_streamfunction {K} (T : sphfam) (s : state K) : mat :=
  to_grid T (s_grid s) (solve_poisson_spectral (s_grid s) (s_vorticity_spectral T s) 0).
(** state.py:190-193 *)
Definition s_pv_flux_spectral {K} (T : sphfam) (s : state K) : spec :=
  divergence_spectral T (s_grid s) (mmul (s_pv T s) (s_u T s)) (mmul (s_pv T s) (s_v T s)).

(** np.mean(f, axis=ZONAL, keepdims=True) subtracted from f *)
Definition zonal_anomaly (f : mat) : mat := map (fun row => map (fun x => x - vmean row) row) f.
(** state.py:212-225, as functions of the fields *)
Definition enstrophy_of (pv : mat) : mat := mmap (fun q => 1 / 2 * q ^ 2) pv.
Definition eddy_enstrophy_of (pv : mat) : mat := mmap (fun q => 1 / 2 * q ^ 2) (zonal_anomaly pv).
Definition energy_of (u v : mat) : mat := mscale (1 / 2) (madd (mmul u u) (mmul v v)).
Definition s_enstrophy {K} (T : sphfam) (s : state K) : mat := enstrophy_of (s_pv T s).
Definition s_eddy_enstrophy {K} (T : sphfam) (s : state K) : mat := eddy_enstrophy_of (s_pv T s).
Definition s_energy {K} (T : sphfam) (s : state K) : mat := energy_of (s_u T s) (s_v T s).

(** State.add_wind, state.py:97-116.  The operand is a State (together with the
    outcome of the identity test self.grid is other.grid) or a tuple of fields. *)
Inductive wind_operand (K : numtype) :=
| WState (other : state K) (same_grid_object : bool)
| WTuple (u v : mat).
Arguments WState {K}.
Arguments WTuple {K}.
Definition add_wind {K} (T : sphfam) (s : state K) (other : wind_operand K) : res (state K) :=
  match other with
  | WState o same =>
      passert same
        (state_from_wind T (s_grid s) (s_time s) (madd (s_u T s) (s_u T o)) (madd (s_v T s) (s_v T o)))
  | WTuple u v =>
      passert (shapedb (g_nlat (s_grid s)) (g_nlon (s_grid s)) u)
        (passert (shapedb (g_nlat (s_grid s)) (g_nlon (s_grid s)) v)
          (state_from_wind T (s_grid s) (s_time s) u v))
  end.

(** State.add_vorticity, state.py:118-136 *)
Inductive vorticity_operand (K : numtype) :=
| VoState (other : state K) (same_grid_object : bool)
| VoField (f : mat).
Arguments VoState {K}.
Arguments VoField {K}.
Definition add_vorticity {K} (T : sphfam) (s : state K) (other : vorticity_operand K) : res (state K) :=
  match other with
  | VoState o same =>
      passert same
        (state_init T (s_grid s) (s_time s) (Some (madd (s_pv T s) (s_vorticity T o))) None)
  | VoField f =>
      passert (shapedb (g_nlat (s_grid s)) (g_nlon (s_grid s)) f)
        (state_init T (s_grid s) (s_time s) (Some (madd (s_pv T s) f)) None)
  end.

(** falwa.barotropic_field.BarotropicField as constructed by as_hn2016: stores the
    coordinates and the field (nlon = xlon.size, nlat = ylat.size, dphi = spacing of
    ylat in radians). *)
Record barofield := mkBarofield { bf_xlon : vec; bf_ylat : vec; bf_pv : mat }.
Definition bf_dphi (b : barofield) : vec := map deg2rad (vdiff (bf_ylat b)).

(** State.as_hn2016, state.py:320-343 *)
Definition as_hn2016 {K} (T : sphfam) (s : state K) : barofield :=
  mkBarofield (g_lon (s_grid s)) (rev (g_lat (s_grid s))) (rev (s_pv T s)).
(** State.from_hn2016, state.py:345-372; [earth] is the pair of default
    arguments of Grid (rsphere, omega) *)
Definition from_hn2016 {K} (T : sphfam) (earth : R * R) (g : option grid) (time : pyval K) (b : barofield) : res (state K) :=
  do g <- match g with
          | Some g => Ok g
          | None =>
              match bf_dphi b with
              | [] => Err IndexError
              | d :: _ => mk_grid (rad2deg d) (fst earth) (snd earth) None
              end
          end;
  passert (Nat.eqb (length (bf_xlon b)) (g_nlon g))
    (passert (Nat.eqb (length (bf_ylat b)) (g_nlat g))
      (state_init T g time (Some (rev (bf_pv b))) None)).
