(** Model of the stationary wavenumber and its waveguides
    (src/barotropic/diagnostics.py:251-360, state.py:279-290).  Both functions
    work with infinities, so their results are extended floats. *)
From Coq Require Export String.
From Verif Require Export Base Model_Grid Model_State Model_Falwa Model_Region Model_Deriv.

(** ** IEEE arithmetic with infinities and NaN.  Finite values are exact reals;
    the sign of zero is not represented (x / 0 takes the sign of x). *)
Inductive ext := Fin (x : R) | PInf | NInf | NaN.

Definition eopp (a : ext) : ext :=
  match a with Fin x => Fin (- x) | PInf => NInf | NInf => PInf | NaN => NaN end.
Definition eadd (a b : ext) : ext :=
  match a, b with
  | NaN, _ | _, NaN | PInf, NInf | NInf, PInf => NaN
  | Fin x, Fin y => Fin (x + y)
  | PInf, _ | _, PInf => PInf
  | NInf, _ | _, NInf => NInf
  end.
Definition esub (a b : ext) : ext := eadd a (eopp b).
(** an infinity with the sign of x; 0 * inf is NaN *)
Definition signed_inf (x : R) : ext := if Rltb 0 x then PInf else if Rltb x 0 then NInf else NaN.
Definition emul (a b : ext) : ext :=
  match a, b with
  | NaN, _ | _, NaN => NaN
  | Fin x, Fin y => Fin (x * y)
  | Fin x, PInf | PInf, Fin x => signed_inf x
  | Fin x, NInf | NInf, Fin x => eopp (signed_inf x)
  | PInf, PInf | NInf, NInf => PInf
  | PInf, NInf | NInf, PInf => NInf
  end.
Definition ediv (a b : ext) : ext :=
  match a, b with
  | NaN, _ | _, NaN => NaN
  | Fin x, Fin y => if Reqb y 0 then signed_inf x else Fin (x / y)
  | Fin _, (PInf | NInf) => Fin 0
  | PInf, Fin y => if Rltb y 0 then NInf else PInf
  | NInf, Fin y => if Rltb y 0 then PInf else NInf
  | (PInf | NInf), (PInf | NInf) => NaN
  end.
Definition eltb (a b : ext) : bool :=
  match a, b with
  | NaN, _ | _, NaN => false
  | Fin x, Fin y => Rltb x y
  | NInf, (Fin _ | PInf) | Fin _, PInf => true
  | _, _ => false
  end.
Definition eleb (a b : ext) : bool :=
  match a, b with
  | NaN, _ | _, NaN => false
  | Fin x, Fin y => Rleb x y
  | NInf, _ | _, PInf => true
  | _, _ => false
  end.
Definition is_inf (a : ext) : bool := match a with PInf | NInf => true | _ => false end.

(** complex numbers as (real part, imaginary part) *)
Notation cext := (ext * ext)%type.
(** np.sqrt of x + 0j *)
Definition csqrt_real (a : ext) : cext :=
  match a with
  | Fin x => if Rltb x 0 then (Fin 0, Fin (sqrt (- x))) else (Fin (sqrt x), Fin 0)
  | PInf => (PInf, Fin 0)
  | NInf => (Fin 0, PInf)
  | NaN => (NaN, NaN)
  end.
(** np.real(z) - np.imag(z) *)
Definition real_minus_imag (z : cext) : ext := esub (fst z) (snd z).

(** ** stationary_wavenumber *)
(** elementwise operation on 1D arrays with NumPy's broadcasting *)
Definition bcast2 (f : R -> R -> R) (v w : vec) : res vec :=
  if Nat.eqb (length v) (length w) then Ok (map2 f v w)
  else match v, w with
       | [x], _ => Ok (map (f x) w)
       | _, [y] => Ok (map (fun x => f x y) v)
       | _, _ => Err ValueError
       end.

(** diagnostics.py:286-287, 293-294: zonal mean unless the input is a profile.
    Arrays with more than two dimensions are outside the model. *)
Definition zonal_profile (f : ndarray) : res vec :=
  match f with A1 v => Ok v | A2 m => Ok (map vmean m) | AOther => Err ValueError end.

(** derivative_meridional of a profile, which is a profile again *)
Definition derivative_profile (g : grid) (v : vec) (order : order_arg) : res vec :=
  do d <- derivative_meridional g (A1 v) order;
  match d with A1 w => Ok w | _ => Err TypeError end.

(** diagnostics.py:288-294: PV profile, from u if no PV is given.  np.cos of the
    pole latitudes is the positive float [np_cosd] (Model_Falwa.v). *)
Definition ks_pv (g : grid) (u : vec) (pv : option ndarray) (order : order_arg) : res vec :=
  let cosphi := map np_cosd (g_lat g) in
  match pv with
  | Some q => zonal_profile q
  | None =>
      do ucos <- bcast2 Rmult u cosphi;
      do d <- derivative_profile g ucos order;
      do rv <- bcast2 Rdiv (map (fun x => - x / g_rsphere g) d) cosphi;
      bcast2 Rplus (g_fcor g) rv
  end.

(** diagnostics.py:298-303, one latitude: a is cos(phi)**2 * rsphere * dpv/dphi *)
Definition ks2_at (min_u a u : R) : ext :=
  let small_u := isclose_tol min_u (/ 100000) u 0 in
  if small_u then (if negb (Reqb a 0) then emul (Fin a) PInf else Fin a)
  else ediv (Fin a) (Fin u).

(** diagnostics.py:284-303; the mask index raises IndexError if u does not have
    as many entries as ks2 *)
Definition ks_squared (g : grid) (u : ndarray) (pv : option ndarray) (order : order_arg) (min_u : R) : res (list ext) :=
  do u1 <- zonal_profile u;
  do q <- ks_pv g u1 pv order;
  do dq <- derivative_profile g q order;
  do a <- bcast2 Rmult (map (fun y => (np_cosd y) ^ 2 * g_rsphere g) (g_lat g)) dq;
  if Nat.eqb (length u1) (length a) then Ok (map2 (ks2_at min_u) a u1) else Err IndexError.

Inductive ks_result := KsReal (v : list ext) | KsComplex (v : list cext).

(** stationary_wavenumber(u, grid, order, min_u, kind), diagnostics.py:251-312;
    [pv] is what _get_grid_vars returns next to u (:9-18): None for an array, the
    State's PV for a State. *)
Definition stationary_wavenumber (g : grid) (u : ndarray) (pv : option ndarray)
    (order : order_arg) (min_u : R) (kind : string) : res ks_result :=
  do ks2 <- ks_squared g u pv order min_u;
  if String.eqb kind "squared" then Ok (KsReal ks2)
  else
    let ks := map csqrt_real ks2 in
    if String.eqb kind "complex" then Ok (KsComplex ks)
    else if String.eqb kind "real" then Ok (KsReal (map real_minus_imag ks))
    else Err ValueError.

(** stationary_wavenumber(state), state.py:278-284: default order 4, min_u 0.001, "complex" *)
Definition state_stationary_wavenumber {K} (T : sphfam) (s : state K) : res ks_result :=
  stationary_wavenumber (s_grid s) (A2 (s_u T s)) (Some (A2 (s_pv T s))) (ONum 4) (/ 1000) "complex".

(** ** extract_ks_waveguides *)
(** the linear-interpolation formula of diagnostics.py:350, 355 *)
Definition wg_cross (g : grid) (k : ext) (lat_n : R) (ks_n ks_s : ext) : ext :=
  esub (Fin lat_n) (ediv (emul (Fin (g_dlat g)) (esub ks_n k)) (esub ks_s ks_n)).
(** diagnostics.py:350 *)
Definition wg_end (g : grid) (k : ext) (lat_n : R) (ks_n ks_s : ext) : ext :=
  if is_inf ks_n then Fin (lat_n + g_dlat g) else wg_cross g k lat_n ks_n ks_s.
(** diagnostics.py:355 *)
Definition wg_start (g : grid) (k : ext) (lat_n : R) (ks_n ks_s : ext) : ext :=
  if is_inf ks_s then Fin lat_n else wg_cross g k lat_n ks_n ks_s.

(** the for loop, diagnostics.py:347-356, with the statement after it (:357-359) *)
Fixpoint wg_loop (g : grid) (k : ext) (segs : list (R * ext * ext)) (active : bool) (start : ext)
    : list (ext * ext) :=
  match segs with
  | [] => if active then [(start, Fin (last (g_lat g) 0))] else []
  | (lat_n, ks_n, ks_s) :: segs' =>
      if active && eltb ks_s k then
        (start, wg_end g k lat_n ks_n ks_s) :: wg_loop g k segs' false start
      else if negb active && eltb k ks_s then
        wg_loop g k segs' true (wg_start g k lat_n ks_n ks_s)
      else wg_loop g k segs' active start
  end.

Fixpoint zip3 {A B C} (l : list A) (m : list B) (n : list C) : list (A * B * C) :=
  match l, m, n with
  | a :: l', b :: m', c :: n' => (a, b, c) :: zip3 l' m' n'
  | _, _, _ => []
  end.

(** extract_ks_waveguides(ks, k, grid), diagnostics.py:315-360.  A real array or
    number x is the complex (x, 0). *)
Definition extract_ks_waveguides (g : grid) (ks : list cext) (k : cext) : res (list (ext * ext)) :=
  let ks := map real_minus_imag ks in
  let k := real_minus_imag k in
  match ks with
  | [] => Err IndexError
  | ks0 :: _ =>
      Ok (wg_loop g k (zip3 (removelast (g_lat g)) (removelast ks) (tl ks)) (eleb k ks0) (Fin (hd 0 (g_lat g))))
  end.

(** State.extract_ks_waveguides, state.py:286-288 *)
Definition state_extract_ks_waveguides {K} (T : sphfam) (s : state K) (k : cext) : res (list (ext * ext)) :=
  do ks <- state_stationary_wavenumber T s;
  match ks with
  | KsComplex z => extract_ks_waveguides (s_grid s) z k
  | KsReal x => extract_ks_waveguides (s_grid s) (map (fun r => (r, Fin 0)) x) k
  end.
