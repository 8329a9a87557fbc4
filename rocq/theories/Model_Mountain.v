(** Construction of GaussianMountain and ZonalSineMountains with the Python
    arguments as they are given (src/barotropic/rhs.py:125-143, 202-217,
    233-246).
    [Model_RHS.relief] starts from the numbers these constructors store. *)
From Coq Require Export String.
From Verif Require Export Base Model_Grid Model_RHS.
From Coq Require Import List.
Import ListNotations.
Open Scope R_scope.

(** Argument values: None, numbers (int, float, bool), strings, tuples or lists.
    Arrays as arguments are not modelled. *)
Inductive pv := PvNone | PvNum (x : R) | PvStr (s : string) | PvSeq (l : list pv).
Definition chars (s : string) : list pv := map (fun c => PvStr (String c EmptyString)) (list_ascii_of_string s).

(** a, b = v *)
Definition unpack2 (v : pv) : res (pv * pv) :=
  let pair l := match l with [a; b] => Ok (a, b) | _ => Err ValueError end in
  match v with
  | PvSeq l => pair l
  | PvStr s => pair (chars s)
  | PvNone | PvNum _ => Err TypeError
  end.
(** v[i] *)
Definition getitem (v : pv) (i : nat) : res pv :=
  let item l := match nth_error l i with Some x => Ok x | None => Err IndexError end in
  match v with
  | PvSeq l => item l
  | PvStr s => item (chars s)
  | PvNone | PvNum _ => Err TypeError
  end.
(** v ** 2 *)
Definition square (v : pv) : res R := match v with PvNum x => Ok (x ^ 2) | _ => Err TypeError end.

(** Keyword arguments; Python guarantees distinct names. *)
Definition kwds := list (string * pv).
Fixpoint kw_get (k : kwds) (name : string) (default : pv) : pv :=
  match k with
  | [] => default
  | (n, v) :: k' => if String.eqb n name then v else kw_get k' name default
  end.
Definition kw_rest (k : kwds) (names : list string) : kwds :=
  filter (fun p => negb (existsb (String.eqb (fst p)) names)) k.

(** The attributes set by Orography.__init__ that the subclasses use *)
Record base := mkBase { b_scale_height : pv; b_fcor_ref : pv; b_kind : wind_kind; b_fact : pv }.
(** super().__init__(None, None, None, **orog_kwargs), rhs.py:125-143: other
    names, also lon, lat and orography, which are given by position, raise
    TypeError *)
Definition base_init (k : kwds) : res base :=
  match kw_rest k ["scale_height"; "wind"; "fcor_ref"]%string with
  | _ :: _ => Err TypeError
  | [] =>
      do w <- unpack2 (kw_get k "wind" (PvSeq [PvStr "act"; PvNum 1]));
      let '(kind, fact) := w in
      let is s := match kind with PvStr t => String.eqb t s | _ => false end in
      let mk := fun wk => Ok (mkBase (kw_get k "scale_height" (PvNum 10000)) (kw_get k "fcor_ref" PvNone) wk fact) in
      if is "act"%string then mk WAct else if is "zon"%string then mk WZon else if is "sbr"%string then mk WSbr
      else Err ValueError
  end.

Inductive mountain :=
| MGauss (b : base) (height center_lon center_lat : pv) (stdev_lon_sq stdev_lat_sq : R)
| MSine (b : base) (height center_lat : pv) (stdev_lat_sq : R) (wavenumber : pv).

(** GaussianMountain.__init__, rhs.py:202-210 *)
Definition gaussian_mountain (k : kwds) : res mountain :=
  do b <- base_init (kw_rest k ["height"; "center"; "stdev"]%string);
  do c <- unpack2 (kw_get k "center" (PvSeq [PvNum 30; PvNum 45]));
  let stdev := kw_get k "stdev" (PvSeq [PvNum (75 / 10); PvNum 20]) in
  let stdev := match stdev with PvNum _ => PvSeq [stdev; stdev] | _ => stdev end in
  do s0 <- getitem stdev 0; do lon_sq <- square s0;
  do s1 <- getitem stdev 1; do lat_sq <- square s1;
  Ok (MGauss b (kw_get k "height" (PvNum 1500)) (fst c) (snd c) lon_sq lat_sq).
(** ZonalSineMountains.__init__, rhs.py:233-239 *)
Definition zonal_sine_mountains (k : kwds) : res mountain :=
  do b <- base_init (kw_rest k ["height"; "center_lat"; "stdev_lat"; "wavenumber"]%string);
  do lat_sq <- square (kw_get k "stdev_lat" (PvNum 10));
  Ok (MSine b (kw_get k "height" (PvNum 1500)) (kw_get k "center_lat" (PvNum 45)) lat_sq (kw_get k "wavenumber" (PvNum 4))).

(** The orography methods, rhs.py:212-217 and :241-246, for numeric attributes;
    what NumPy makes of strings, None or tuples there is not modelled. *)
Definition mountain_orography (m : mountain) (g : grid) : option mat :=
  let bump (x c sq : R) := exp (- (1 / 2) * (x - c) ^ 2 / sq) in
  match m with
  | MGauss _ (PvNum h) (PvNum clon) (PvNum clat) lon_sq lat_sq =>
      Some (map2 (map2 (fun lon lat => h * bump lon clon lon_sq * bump lat clat lat_sq)) (g_lon2 g) (g_lat2 g))
  | MSine _ (PvNum h) (PvNum clat) lat_sq (PvNum w) =>
      Some (map2 (map2 (fun lam lat => h * (1 / 2 * (1 + cos (w * lam))) * bump lat clat lat_sq)) (g_lam2 g) (g_lat2 g))
  | _ => None
  end.
Definition mountain_base (m : mountain) : base := match m with MGauss b _ _ _ _ _ | MSine b _ _ _ _ => b end.

(** __call__ of the mountain, rhs.py:173-185, for numeric attributes *)
Definition mountain_call {K} (T : sphfam) (m : mountain) (s : state K) : option mat :=
  match mountain_orography m (s_grid s), mountain_base m with
  | Some h, mkBase (PvNum hs) f wk (PvNum fact) =>
      match f with
      | PvNone => Some (orog_value T (mkOrog (RField [] [] []) hs wk fact None) s (gradient T (s_grid s) h))
      | PvNum fc => Some (orog_value T (mkOrog (RField [] [] []) hs wk fact (Some fc)) s (gradient T (s_grid s) h))
      | _ => None
      end
  | _, _ => None
  end.
