(** Model of the forcing terms (src/barotropic/rhs.py). *)
From Coq Require Export String.
From Verif Require Export Base Model_Grid Model_Time Model_Spectral Model_State Model_Run.
From Coq Require Import List.

(** NumPy arithmetic between numbers and 2D arrays.  Arrays of different shapes
    raise ValueError; broadcasting of arrays with axes of length 1 is modelled
    only where rhs.py uses it (see [bfield] below). *)
Definition same_shape (a b : mat) : bool :=
  Nat.eqb (length a) (length b) && forallb (fun p => Nat.eqb (length (fst p)) (length (snd p))) (combine a b).
Definition fbin (op : R -> R -> R) (a b : fval) : res fval :=
  match a, b with
  | FNum x, FNum y => Ok (FNum (op x y))
  | FNum x, FMat n => Ok (FMat (mmap (op x) n))
  | FMat m, FNum y => Ok (FMat (mmap (fun x => op x y) m))
  | FMat m, FMat n => if same_shape m n then Ok (FMat (map2 (map2 op) m n)) else Err ValueError
  end.

(** np.interp(x, xp, fp) for increasing xp: constant outside the range, linear
    inside.  The index is that of the last xp <= x. *)
Definition np_interp (x : R) (xp fp : vec) : R :=
  let n := length xp in
  if Rltb x (nth 0 xp 0) then nth 0 fp 0
  else if Rleb (nth (n - 1) xp 0) x then nth (n - 1) fp 0
  else
    let j := (length (filter (fun a => Rleb a x) xp) - 1)%nat in
    nth j fp 0 + (nth (j + 1) fp 0 - nth j fp 0) / (nth (j + 1) xp 0 - nth j xp 0) * (x - nth j xp 0).

(** What distinguishes the orography methods of the three classes: the gridded
    field of Orography (rhs.py:126-129), the parameters of GaussianMountain
    (:203-210) and of ZonalSineMountains (:234-239). *)
Inductive relief :=
| RField (lon lat : vec) (h : mat)
| RGauss (height center_lon center_lat stdev_lon stdev_lat : R)
| RSine (height center_lat stdev_lat wavenumber : R).

(** Orography.orography, rhs.py:145-161; np.interp raises ValueError for empty
    or differently long xp and fp *)
Definition interp_orography (lon lat : vec) (h : mat) (g : grid) : res mat :=
  if Nat.eqb (length lat) 0 || Nat.eqb (length lon) 0 || negb (shapedb (length lat) (length lon) h) then Err ValueError
  else
    let orog := map (fun y => tab (length lon) (fun b => np_interp (- y) (map Ropp lat) (mcol h b))) (g_lat g) in
    Ok (map (fun row => map (fun x => np_interp x lon row) (g_lon g)) orog).

Definition gauss (x c s : R) : R := exp (- (1 / 2) * (x - c) ^ 2 / s ^ 2).
Definition orography (r : relief) (g : grid) : res mat :=
  match r with
  | RField lon lat h => interp_orography lon lat h g
  (* GaussianMountain.orography, rhs.py:212-217 *)
  | RGauss height clon clat slon slat =>
      Ok (map2 (map2 (fun lon lat => height * gauss lon clon slon * gauss lat clat slat)) (g_lon2 g) (g_lat2 g))
  (* ZonalSineMountains.orography, rhs.py:241-246 *)
  | RSine height clat slat k =>
      Ok (map2 (map2 (fun lam lat => height * (1 / 2 * (1 + cos (k * lam))) * gauss lat clat slat)) (g_lam2 g) (g_lat2 g))
  end.

Inductive wind_kind := WAct | WZon | WSbr.
Record orog := mkOrog {
  o_relief : relief;
  o_scale_height : R;
  o_wind : wind_kind;
  o_fact : R;
  o_fcor_ref : option R
}.

(** Orography.__init__, rhs.py:125-143; the subclasses call it first (:204, :235) *)
Definition mk_orog (r : relief) (scale_height : R) (wind : string * R) (fcor_ref : option R) : res orog :=
  let '(kind, fact) := wind in
  if String.eqb kind "act" then Ok (mkOrog r scale_height WAct fact fcor_ref)
  else if String.eqb kind "zon" then Ok (mkOrog r scale_height WZon fact fcor_ref)
  else if String.eqb kind "sbr" then Ok (mkOrog r scale_height WSbr fact fcor_ref)
  else Err ValueError.

(** A factor that broadcasts against a field: a field, a column of shape
    (nlat, 1), or a number. *)
Inductive bfield := BMat (m : mat) | BCol (c : vec) | BNum (x : R).
Definition bmul (b : bfield) (f : mat) : mat :=
  match b with
  | BMat m => mmul m f
  | BCol c => map2 vscale c f
  | BNum x => mscale x f
  end.

Section Terms.
Context {K : numtype} (T : sphfam).

(** self._get_wind, rhs.py:136-143 *)
Definition get_wind (o : orog) (s : state K) : bfield * bfield :=
  match o_wind o with
  | WAct => (BMat (mscale (o_fact o) (s_u T s)), BMat (mscale (o_fact o) (s_v T s)))
  | WZon => (BCol (map (fun row => o_fact o * vmean row) (s_u T s)), BNum 0)
  | WSbr => (BCol (map (fun phi => o_fact o * cos phi) (g_phi (s_grid s))), BNum 0)
  end.

(** Orography._orography_gradient without the cache, rhs.py:163-171 *)
Definition orography_gradient (r : relief) (g : grid) : res (mat * mat) :=
  do h <- orography r g; Ok (gradient T g h).

(** the arithmetic of Orography.__call__, rhs.py:173-185; scale_height <> 0 *)
Definition orog_value (o : orog) (s : state K) (grad : mat * mat) : mat :=
  let fcor := match o_fcor_ref o with
              | None => BMat (mscale (- / o_scale_height o) (g_fcor2 (s_grid s)))
              | Some f => BNum (- f / o_scale_height o)
              end in
  let '(u, v) := get_wind o s in
  bmul fcor (madd (bmul u (fst grad)) (bmul v (snd grad))).
Definition orog_call (o : orog) (s : state K) : res fval :=
  do grad <- orography_gradient (o_relief o) (s_grid s);
  Ok (FMat (orog_value o s grad)).

(** Python objects that take part in forcing expressions.  [PNum] is an int or
    float, [PFun] any other callable (e.g. a function), [PUser] an instance of a
    user-defined subclass of RHS. *)
Inductive obj :=
| PNum (c : R)
| PFun (f : state K -> res fval)
| PUser (f : state K -> res fval)
| PSum (a b : obj)
| PProd (a b : obj)
| PSwitch (tend : pyval K)
| PRelax (rate : R) (reference_pv : fval)
| POrog (o : orog).
Definition is_rhs (a : obj) : bool := match a with PNum _ | PFun _ => false | _ => true end.

(** a + b and a * b: RHS.__add__, __radd__, __mul__, __rmul__, rhs.py:16-26;
    otherwise the operators of the operands' own types *)
Definition op_add (a b : obj) : res obj :=
  if is_rhs a || is_rhs b then Ok (PSum a b)
  else match a, b with PNum x, PNum y => Ok (PNum (x + y)) | _, _ => Err TypeError end.
Definition op_mul (a b : obj) : res obj :=
  if is_rhs a || is_rhs b then Ok (PProd a b)
  else match a, b with PNum x, PNum y => Ok (PNum (x * y)) | _, _ => Err TypeError end.

(** LinearRelaxation.__call__, rhs.py:90-91 *)
Definition relax_call (rate : R) (reference_pv : fval) (s : state K) : res fval :=
  do d <- fbin Rminus reference_pv (FMat (s_pv T s)); fbin Rmult (FNum rate) d.
(** TimedOffSwitch.__call__, rhs.py:70-71 *)
Definition switch_call (tend : pyval K) (s : state K) : res fval :=
  do on <- py_le (s_time s) tend; Ok (FNum (if on then 1 else 0)).

(** a(state): numbers are not callable; _RHSSum.__call__, rhs.py:35-36,
    _RHSProduct.__call__, rhs.py:48-49 *)
Fixpoint call (a : obj) (s : state K) : res fval :=
  match a with
  | PNum _ => Err TypeError
  | PFun f | PUser f => f s
  | PSum a b => do x <- call a s; do y <- call b s; fbin Rplus x y
  | PProd a b => do x <- call a s; do y <- call b s; fbin Rmult x y
  | PSwitch tend => switch_call tend s
  | PRelax rate ref => relax_call rate ref s
  | POrog o => orog_call o s
  end.
End Terms.
Arguments obj : clear implicits.

(** functools.lru_cache(maxsize=8) around _orography_gradient, rhs.py:163.  One
    cache is shared by all Orography objects; keys are (self, grid).  Objects
    compare and hash by identity (a number here; the cache keeps its keys alive,
    so identities are not reused), grids by __eq__ and __hash__.  Entries are
    kept in order of last use, most recent first.  Exceptions are not cached. *)
Definition cache := list ((nat * grid) * (mat * mat)).
Definition hash_eqb (a b : grid) : bool :=
  Nat.eqb (g_nlat a) (g_nlat b) && Nat.eqb (g_nlon a) (g_nlon b)
  && Reqb (g_rsphere a) (g_rsphere b) && Reqb (g_omega a) (g_omega b) && Nat.eqb (g_ntrunc a) (g_ntrunc b).
Definition key_eqb (a b : nat * grid) : bool :=
  Nat.eqb (fst a) (fst b) && hash_eqb (snd a) (snd b) && grid_eqb (snd a) (snd b).
Fixpoint cache_take (k : nat * grid) (c : cache) : option (((nat * grid) * (mat * mat)) * cache) :=
  match c with
  | [] => None
  | e :: c => if key_eqb (fst e) k then Some (e, c)
              else match cache_take k c with Some (e', c') => Some (e', e :: c') | None => None end
  end.
Definition maxsize : nat := 8.
Definition cached_gradient (T : sphfam) (r : relief) (k : nat * grid) (c : cache) : res (mat * mat) * cache :=
  match cache_take k c with
  | Some (e, c') => (Ok (snd e), e :: c')
  | None =>
      match orography_gradient T r (snd k) with
      | Ok v => (Ok v, firstn maxsize ((k, v) :: c))
      | Err e => (Err e, c)
      end
  end.
(** Orography.__call__ of object number [i], whose attributes are [o] *)
Definition cached_call {K} (T : sphfam) (i : nat) (o : orog) (s : state K) (c : cache) : res fval * cache :=
  let '(r, c') := cached_gradient T (o_relief o) (i, s_grid s) c in
  (do grad <- r; Ok (FMat (orog_value T o s grad)), c').
