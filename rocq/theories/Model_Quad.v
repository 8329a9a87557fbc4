(** Model of the quadrature, equivalent latitude, zonalization and meridional
    interpolation (src/barotropic/grid.py:469-697). *)
From Coq Require Export String.
From Verif Require Export Base Model_Grid Model_Region.

(** A point on a meridian: (phi, (y, z)). *)
Notation mnode := (R * (R * R))%type.

(** grid.py:535-570, one interval between the points [l] (north) and [r]
    (south) of one meridian; 0 if the interval is excluded by the where
    argument of np.sum. *)
Definition seg_trapz (rs : R) (l r : mnode) : R :=
  let xl := fst l in let yl := fst (snd l) in let zl := snd (snd l) in
  let xr := fst r in let yr := fst (snd r) in let zr := snd (snd r) in
  let dx := xr - xl in
  let dy := yr - yl in
  let aa := dy / dx in
  let bb := yl - aa * xl in
  let nonneg_l := Rleb 0 zl in
  let nonneg_r := Rleb 0 zr in
  let xs := if negb nonneg_l && nonneg_r then xl - zl / (zr - zl) * dx else xl in
  let xe := if nonneg_l && negb nonneg_r then xr - zr / (zr - zl) * dx else xr in
  let trapz := rs * (aa * (cos xs - cos xe) + (aa * xs + bb) * sin xs - (aa * xe + bb) * sin xe) in
  if nonneg_l || nonneg_r then trapz else 0.

(** one column of grid.py:524-570 *)
Definition col_trapz (rs : R) (x y z : vec) : R :=
  Rsum (map (fun p => seg_trapz rs (fst p) (snd p)) (pairs (combine x (combine y z)))).

(** one column of grid.py:516-522 *)
Definition col_box (g : grid) (y z : vec) : R :=
  Rsum (map2 (fun a p => if Rleb 0 (snd p) then a * fst p else 0) (gridpoint_area g) (combine y z))
  / g_rsphere g / g_dlam g.

(** The method argument. *)
Definition is_boxcount (m : string) : bool := String.eqb m "boxcount".
Definition is_sptrapz (m : string) : bool := String.eqb m "sptrapz".

(** Grid.quad_meridional, grid.py:486-573.  Every column of phi2 is phi
    (grid.py:63).  z = None integrates everywhere: where=True for boxcount,
    z = ones for sptrapz.  A z of a shape different from y's is a ValueError with
    boxcount (simplification: NumPy would accept shapes that broadcast) and an
    IndexError with sptrapz (boolean index, :550).  A field with more columns than
    the grid does not broadcast against phi2 (sptrapz, :539). *)
Definition quad_meridional (g : grid) (y : ndarray) (z : option mat) (method : string) : res vec :=
  match y with
  | A2 m =>
      passert (Nat.eqb (length m) (g_nlat g))
      (let nc := ncols m in
       let zz := match z with Some zm => zm | None => mat_of (g_nlat g) nc (fun _ _ => 1) end in
       if is_boxcount method then
         if shapedb (g_nlat g) nc zz then
           Ok (tab nc (fun j => col_box g (mcol m j) (mcol zz j)))
         else Err ValueError
       else if is_sptrapz method then
         if Nat.leb nc (g_nlon g) then
           if shapedb (g_nlat g) nc zz then
             Ok (tab nc (fun j => col_trapz (g_rsphere g) (g_phi g) (mcol m j) (mcol zz j)))
           else Err IndexError
         else Err ValueError
       else Err ValueError)
  | _ => Err AssertionError
  end.

(** Grid.quad, grid.py:471-484 *)
Definition quad (g : grid) (y : ndarray) (z : option mat) (method : string) : res R :=
  do q <- quad_meridional g y z method;
  Ok (g_rsphere g * g_dlam g * Rsum q).

(** Argument of equivalent_latitude: a number or a 1D array. *)
Inductive num_or_array := ANum (x : R) | AArr (v : vec).
(** grid.py:592-597 for one element *)
Definition eqlat1 (g : grid) (area : R) : R :=
  let sine := 1 - / 2 * area / PI / (g_rsphere g * g_rsphere g) in
  let sine := if Rleb 1 sine then 1 else sine in
  let sine := if Rleb sine (-1) then -1 else sine in
  rad2deg (asin sine).
(** Grid.equivalent_latitude, grid.py:577-597: item assignment (:594) on a
    float raises TypeError *)
Definition equivalent_latitude (g : grid) (area : num_or_array) : res vec :=
  match area with
  | ANum _ => Err TypeError
  | AArr v => Ok (map (eqlat1 g) v)
  end.

(** The levels argument of zonalize. *)
Inductive levels_arg := LNone | LInt (n : Z) | LArr (v : vec).

(** grid.py:640-642: 0.5 * ((q_max-q_min) * sin(0.5*pi*linspace(-1,1,n+2)[1:-1]) + q_min + q_max) *)
Definition auto_levels (qmin qmax : R) (n : nat) : vec :=
  map (fun t => / 2 * ((qmax - qmin) * sin (/ 2 * PI * t) + qmin + qmax))
      (firstn n (tl (linspace_end (-1) 1 (n + 2)))).

(** grid.py:631-645 *)
Definition zonalize_levels (g : grid) (qmin qmax : R) (levels : levels_arg) (qd : string) : vec :=
  match levels with
  | LNone => auto_levels qmin qmax (g_nlat g * (if is_boxcount qd then 2 else 1))
  | LInt n => auto_levels qmin qmax (Z.to_nat n)
  | LArr v => v
  end.

Definition ones_like (m : mat) : mat := mmap (fun _ => 1) m.

(** Grid.zonalize with interpolate=False, grid.py:599-660.  An empty field has
    no minimum (ValueError); np.vectorize refuses an empty list of levels
    (ValueError), which also covers every non-positive number of levels. *)
Definition zonalize_contours (g : grid) (field : mat) (levels : levels_arg) (qd : string)
  : res (vec * vec) :=
  if Nat.eqb (length field) 0 || Nat.eqb (ncols field) 0 then Err ValueError
  else
    let q := zonalize_levels g (mmin field) (mmax field) levels qd in
    match q with
    | [] => Err ValueError
    | _ =>
      do area <- res_map (fun thresh =>
                   quad g (A2 (ones_like field)) (Some (mmap (fun x => x - thresh) field)) qd) q;
      let area_factor := INR (g_nlon g) / INR (ncols field) in
      do y <- equivalent_latitude g (AArr (map (fun a => a * area_factor) area));
      Ok (q, y)
    end.

(** ** scipy.interpolate.interp1d(kind="linear") *)
(** np.argsort(x, kind="mergesort") followed by take: stable sort by x *)
Fixpoint insert_node (p : R * R) (l : list (R * R)) : list (R * R) :=
  match l with
  | [] => [p]
  | q :: t => if Rleb (fst p) (fst q) then p :: l else q :: insert_node p t
  end.
Definition sort_nodes (l : list (R * R)) : list (R * R) := fold_right insert_node [] l.

Definition count_if (p : R -> bool) (l : list R) : nat := length (filter p l).

(** straight line through two nodes, (y_hi-y_lo)/(x_hi-x_lo)*(x-x_lo)+y_lo *)
Definition line_through (lo hi : R * R) (x : R) : R :=
  (snd hi - snd lo) / (fst hi - fst lo) * (x - fst lo) + snd lo.

(** np.interp inside the range of the (sorted) nodes, used by interp1d for 1D
    data: j = last index with x_j <= x; the node value if j is the last node or
    x_j == x, else the line through nodes j and j+1. *)
Definition eval_np (nodes : list (R * R)) (x : R) : R :=
  let j := (count_if (fun t => Rleb t x) (map fst nodes) - 1)%nat in
  if Nat.eqb j (length nodes - 1) then snd (nth j nodes (0, 0))
  else if Reqb (fst (nth j nodes (0, 0))) x then snd (nth j nodes (0, 0))
  else line_through (nth j nodes (0, 0)) (nth (S j) nodes (0, 0)) x.

(** interp1d._call_linear, used for 2D data: index = searchsorted(x_nodes, x)
    (left) clipped to [1, len-1]; None stands for NaN, which arises from a
    division by x_hi - x_lo = 0 followed by a multiplication with x - x_lo = 0. *)
Definition eval_linear (nodes : list (R * R)) (x : R) : option R :=
  let k := Nat.min (Nat.max 1 (count_if (fun t => Rltb t x) (map fst nodes))) (length nodes - 1) in
  let lo := nth (k - 1) nodes (0, 0) in
  let hi := nth k nodes (0, 0) in
  if Reqb (fst lo) (fst hi) then None else Some (line_through lo hi x).

(** nodes handed to interp1d by interp1d_meridional (grid.py:683-689) for one
    meridional column of data, and sorted by interp1d *)
Definition padded_nodes (lat field : vec) (pole : R * R) : list (R * R) :=
  sort_nodes (combine (90 :: lat ++ [-90]) (fst pole :: field ++ [snd pole])).

(** bounds check of interp1d: x below the first or above the last node is a
    ValueError *)
Definition in_bounds (nodes : list (R * R)) (x : R) : bool :=
  Rleb (fst (hd (0, 0) nodes)) x && Rleb x (fst (last nodes (0, 0))).

(** Grid.interp1d_meridional(...)(xs) for 1D and 2D fields, grid.py:666-689;
    interp1d raises ValueError if the numbers of latitudes and data differ. *)
Definition interp1d_1d (field lat : vec) (pole : R * R) (xs : vec) : res vec :=
  if negb (Nat.eqb (length field) (length lat)) then Err ValueError
  else
    let nodes := padded_nodes lat field pole in
    if forallb (in_bounds nodes) xs then Ok (map (eval_np nodes) xs) else Err ValueError.
Definition interp1d_2d (field : mat) (lat : vec) (pole : R * R) (xs : vec) : res (list (list (option R))) :=
  if negb (Nat.eqb (length field) (length lat)) then Err ValueError
  else
    let nc := ncols field in
    let nodes j := padded_nodes lat (mcol field j) pole in
    if forallb (in_bounds (padded_nodes lat lat pole)) xs
    then Ok (map (fun x => tab nc (fun j => eval_linear (nodes j) x)) xs) else Err ValueError.

(** Grid.interpolate_meridional, grid.py:691-697 *)
Definition interpolate_meridional_1d (g : grid) (field lat : vec) (pole : R * R) : res vec :=
  interp1d_1d field lat pole (g_lat g).
Definition interpolate_meridional_2d (g : grid) (field : mat) (lat : vec) (pole : R * R) :=
  interp1d_2d field lat pole (g_lat g).

(** Grid.zonalize with interpolate=True, grid.py:661-662 *)
Definition zonalize (g : grid) (field : mat) (levels : levels_arg) (qd : string) : res vec :=
  do qy <- zonalize_contours g field levels qd;
  interpolate_meridional_1d g (fst qy) (snd qy) (mmax field, mmin field).
