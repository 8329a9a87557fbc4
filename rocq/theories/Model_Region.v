(** Model of Grid.gridpoint_area, Grid.mean, GridRegionIndexer and GridRegion
    (src/barotropic/grid.py:415-467, 778-1012) and of the text map in
    formatting.grid_region_repr (src/barotropic/formatting.py:43-58). *)
From Coq Require Export String.
From Verif Require Export Base Model_Grid.

(** grid.py:424: mid_phi = 0.5 * (phi[1:] + phi[:-1]) *)
Definition mid_phi (g : grid) (i : nat) : R :=
  / 2 * (nth (S i) (g_phi g) 0 + nth i (g_phi g) 0).

(** Grid.gridpoint_area, grid.py:415-432 *)
Definition gridpoint_area (g : grid) : vec :=
  tab (g_nlat g) (fun i =>
    g_rsphere g * g_rsphere g * g_dlam g *
    (if Nat.eqb i 0 then 1 - sin (mid_phi g 0)
     else if Nat.eqb i (g_nlat g - 1) then 1 + sin (mid_phi g (g_nlat g - 2))
     else sin (mid_phi g (i - 1)) - sin (mid_phi g i))).

(** ** Region selection *)

(** A bound of a slice: None, a real number, or some other object. *)
Inductive bound := BNone | BNum (x : R) | BOther.
(** One component of the index: a number, a string, a slice (with a flag
    telling whether a step is given), or some other object. *)
Inductive selection :=
| SelNum (x : R)
| SelStr (s : string)
| SelSlice (start stop : bound) (step : bool)
| SelOther.
(** The argument of grid.region[...]: a tuple or a single object. *)
Inductive index_arg := IdxOne (s : selection) | IdxTuple (l : list selection).

(** indices[mask] for indices = np.arange(n) and a mask computed from the
    coordinate array *)
Definition pick (coord : vec) (p : R -> bool) : list nat :=
  filter (fun i => p (nth i coord 0)) (seq 0 (length coord)).

(** np.argwhere(np.isclose(coord, x)).flatten() and the size check
    (grid.py:800-803, 835-838) *)
Definition pick_single (coord : vec) (x : R) : res (list nat) :=
  let idx := pick coord (fun c => isclose c x) in
  if Nat.eqb (length idx) 1 then Ok idx else Err IndexError.

(** grid.py:812-817, 842-847: checks on slices *)
Definition check_slice (start stop : bound) (step : bool) : res (option R * option R) :=
  match start with
  | BOther => Err IndexError
  | _ =>
    match stop with
    | BOther => Err IndexError
    | _ =>
      if step then Err IndexError
      else Ok (match start with BNum x => Some x | _ => None end,
               match stop with BNum x => Some x | _ => None end)
    end
  end.

(** grid.py:821-830 *)
Definition lat_range (g : grid) (lo hi : option R) : list nat :=
  let lat := g_lat g in
  match lo, hi with
  | None, None => seq 0 (g_nlat g)
  | None, Some h => pick lat (fun y => Rleb y h)
  | Some l, None => pick lat (fun y => Rleb l y)
  | Some l, Some h => pick lat (fun y => Rleb (Rmin l h) y && Rleb y (Rmax l h))
  end.

(** GridRegionIndexer._get_lat_indices, grid.py:797-830 *)
Definition get_lat_indices (g : grid) (s : selection) : res (list nat) :=
  match s with
  | SelNum x => pick_single (g_lat g) x
  | SelStr t =>
      if String.eqb t "N" then Ok (lat_range g (Some 0) (Some 90))
      else if String.eqb t "S" then Ok (lat_range g (Some (-90)) (Some 0))
      else Err IndexError
  | SelSlice start stop step =>
      do b <- check_slice start stop step; Ok (lat_range g (fst b) (snd b))
  | SelOther => Err IndexError
  end.

(** grid.py:851-863 *)
Definition lon_range (g : grid) (lo hi : option R) : list nat :=
  let lon := g_lon g in
  match lo, hi with
  | None, None => seq 0 (g_nlon g)
  | None, Some h => pick lon (fun x => Rleb x h)
  | Some l, None => pick lon (fun x => Rleb l x)
  | Some l, Some h =>
      if Rltb h l
      then roll (pick lon (fun x => Rleb x h || Rleb l x))
                (length (pick lon (fun x => Rleb l x)))
      else pick lon (fun x => Rleb l x && Rleb x h)
  end.

(** GridRegionIndexer._get_lon_indices, grid.py:832-863 *)
Definition get_lon_indices (g : grid) (s : selection) : res (list nat) :=
  match s with
  | SelNum x => pick_single (g_lon g) x
  | SelSlice start stop step =>
      do b <- check_slice start stop step; Ok (lon_range g (fst b) (snd b))
  | _ => Err IndexError
  end.

(** GridRegion, grid.py:867-887.  Indices are natural numbers (the indexer
    only produces indices from np.arange). *)
Record region := mkRegion { rg_grid : grid; rg_lat_idx : list nat; rg_lon_idx : list nat }.
Definition mk_region (g : grid) (lat_idx lon_idx : list nat) : res region :=
  passert (Nat.leb (length lat_idx) (g_nlat g))
  (passert (Nat.leb (length lon_idx) (g_nlon g))
  (Ok {| rg_grid := g; rg_lat_idx := lat_idx; rg_lon_idx := lon_idx |})).

(** GridRegionIndexer.__getitem__, grid.py:783-795 *)
Definition region_getitem (g : grid) (arg : index_arg) : res region :=
  let sel := match arg with
             | IdxOne s => [s; SelSlice BNone BNone false]
             | IdxTuple l => l
             end in
  match sel with
  | [slon; slat] =>
      do lon_idx <- get_lon_indices g slon;
      do lat_idx <- get_lat_indices g slat;
      mk_region g lat_idx lon_idx
  | _ => Err IndexError
  end.

(** Arrays handed to extract: 1D, 2D or anything else.  The list of rows does
    not record the number of columns of a 2D array without rows. *)
Inductive ndarray := A1 (v : vec) | A2 (m : mat) | AOther.

Definition take_idx {A} (d : A) (v : list A) (idx : list nat) : list A :=
  map (fun i => nth i v d) idx.

(** GridRegion._extract_one, grid.py:892-904 *)
Definition extract_one (rg : region) (field : ndarray) : res ndarray :=
  match field with
  | A1 v =>
      if Nat.eqb (length v) (g_nlat (rg_grid rg)) then Ok (A1 (take_idx 0 v (rg_lat_idx rg)))
      else if Nat.eqb (length v) (g_nlon (rg_grid rg)) then Ok (A1 (take_idx 0 v (rg_lon_idx rg)))
      else Err ValueError
  | A2 m =>
      if shapedb (g_nlat (rg_grid rg)) (g_nlon (rg_grid rg)) m
      then Ok (A2 (map (fun r => take_idx 0 r (rg_lon_idx rg)) (take_idx [] m (rg_lat_idx rg))))
      else Err ValueError
  | AOther => Err ValueError
  end.

(** GridRegion.extract, grid.py:906-952: a single array or a tuple *)
Inductive extracted := ExOne (a : ndarray) | ExTuple (l : list ndarray).
Definition extract (rg : region) (fields : list ndarray) : res extracted :=
  match fields with
  | [] => Err ValueError
  | [f] => do a <- extract_one rg f; Ok (ExOne a)
  | _ => do l <- res_map (extract_one rg) fields; Ok (ExTuple l)
  end.

(** GridRegion.mask, grid.py:954-959 *)
Definition region_mask (rg : region) : list (list bool) :=
  tab (g_nlat (rg_grid rg)) (fun i => tab (g_nlon (rg_grid rg)) (fun j =>
    existsb (Nat.eqb i) (rg_lat_idx rg) && existsb (Nat.eqb j) (rg_lon_idx rg))).

(** GridRegion.shape, lat, lon, grid.py:961-980 *)
Definition region_shape (rg : region) : nat * nat :=
  (length (rg_lat_idx rg), length (rg_lon_idx rg)).
Definition region_lat (rg : region) : vec := take_idx 0 (g_lat (rg_grid rg)) (rg_lat_idx rg).
Definition region_lon (rg : region) : vec := take_idx 0 (g_lon (rg_grid rg)) (rg_lon_idx rg).

(** GridRegion.lon_mono, grid.py:982-1000 *)
Definition region_lon_mono (rg : region) : res vec :=
  let lon := region_lon rg in
  match filter (fun i => Rltb (nth i (vdiff lon) 0) 0) (seq 0 (length (vdiff lon))) with
  | [] => Ok lon
  | [j] => Ok (map (fun x => x - 360) (firstn (S j) lon) ++ skipn (S j) lon)
  | _ => Err AssertionError
  end.

(** GridRegion.gridpoint_area, grid.py:1002-1005 *)
Definition region_area (rg : region) : res vec :=
  do a <- extract rg [A1 (gridpoint_area (rg_grid rg))];
  match a with ExOne (A1 v) => Ok v | _ => Err TypeError end.

(** ** Grid.mean *)
(** Values of the axis argument: None, a number (Python compares 0 == 0.0 ==
    False), a string, or any other object. *)
Inductive axis_arg := AxNone | AxNum (x : R) | AxStr (s : string) | AxOther.
Inductive mean_result := MScalar (x : R) | MProfile (v : vec).

Definition is_meridional_axis (a : axis_arg) : bool :=
  match a with
  | AxNum x => Reqb x 0 || Reqb x (-2)
  | AxStr s => String.eqb s "meridional"
  | _ => false
  end.
Definition is_zonal_axis (a : axis_arg) : bool :=
  match a with
  | AxNum x => Reqb x 1 || Reqb x (-1)
  | AxStr s => String.eqb s "zonal"
  | _ => false
  end.

(** grid.py:458-467 for a field with [nc] columns; empty sums give NaN in NumPy. *)
Definition mean_core (field : mat) (nc : nat) (area : vec) (ax : axis_arg) : res mean_result :=
  match ax with
  | AxNone =>
      if Nat.eqb (length field) 0 || Nat.eqb nc 0 then Err NotANumber
      else Ok (MScalar (msum (map2 (fun a r => vscale a r) area field) / Rsum area / INR nc))
  | _ =>
      if is_meridional_axis ax then
        if Nat.eqb (length field) 0 && negb (Nat.eqb nc 0) then Err NotANumber
        else Ok (MProfile (tab nc (fun j =>
               Rsum (map2 (fun a r => nth j r 0 * a) area field) / Rsum area)))
      else if is_zonal_axis ax then
        if Nat.eqb nc 0 && negb (Nat.eqb (length field) 0) then Err NotANumber
        else Ok (MProfile (map vmean field))
      else Err ValueError
  end.

(** Grid.mean, grid.py:434-467.  [region] objects of other classes ("any object
    that implements a compatible extract method") are not modelled. *)
Definition grid_mean (g : grid) (field : ndarray) (ax : axis_arg) (rg : option region) : res mean_result :=
  match rg with
  | None =>
      match field with
      | A2 m => passert (shapedb (g_nlat g) (g_nlon g) m)
                  (mean_core m (g_nlon g) (gridpoint_area g) ax)
      | _ => Err AssertionError
      end
  | Some r =>
      match field with
      | A2 m =>
          if shapedb (g_nlat g) (g_nlon g) m then
            do e <- extract r [A2 m];
            match e with
            | ExOne (A2 m') => do area <- region_area r; mean_core m' (snd (region_shape r)) area ax
            | _ => Err TypeError
            end
          else
            passert (shapedb (fst (region_shape r)) (snd (region_shape r)) m)
              (do area <- region_area r; mean_core m (snd (region_shape r)) area ax)
      | _ => Err AssertionError
      end
  end.

(** GridRegion.mean, grid.py:1007-1012 *)
Definition region_mean (rg : region) (field : ndarray) : res mean_result :=
  grid_mean (rg_grid rg) field AxNone (Some rg).

(** ** formatting.grid_region_repr, formatting.py:43-58 *)
(** np.histogram(values, np.linspace(a, b, n+1))[0] > 0: bin k is half-open,
    the last bin closed *)
Definition hist_mask (values : vec) (a b : R) (n : nat) : list bool :=
  let edge k := a + INR k * ((b - a) / INR n) in
  tab n (fun k => existsb (fun x =>
    Rleb (edge k) x && (if Nat.eqb (S k) n then Rleb x (edge (S k)) else Rltb x (edge (S k)))) values).
(** the numbers in the two header lines and the map of X marks (north first) *)
Record region_repr := mkRepr {
  rr_lat_s : R; rr_lat_n : R; rr_nlat : nat; rr_lon_w : R; rr_lon_e : R; rr_nlon : nat;
  rr_map : list (list bool) }.
(** region.lat[[-1,0]] of an empty array raises IndexError (formatting.py:54-55) *)
Definition grid_region_repr (rg : region) : res region_repr :=
  let lat := region_lat rg in
  let lon := region_lon rg in
  let mlat := rev (hist_mask lat (-90) 90 9) in
  let mlon := hist_mask lon 0 360 36 in
  match lat with
  | [] => Err IndexError
  | _ => match lon with
         | [] => Err IndexError
         | _ => Ok {| rr_lat_s := last lat 0; rr_lat_n := hd 0 lat; rr_nlat := fst (region_shape rg);
                      rr_lon_w := hd 0 lon; rr_lon_e := last lon 0; rr_nlon := snd (region_shape rg);
                      rr_map := map (fun a => map (fun b => a && b) mlon) mlat |}
         end
  end.
