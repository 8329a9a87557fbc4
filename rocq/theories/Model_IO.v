(** Model of the conversion between States and xarray Datasets
    (src/barotropic/io.py:11-347).

    xarray is external; the model uses the following part of its documented
    behaviour.  A Dataset is a set of named variables over named dimensions;
    some of the variables are coordinates.  Coordinate values are numbers (exact
    reals) or dates (in microseconds, as in Model_Time.v); other data are
    numbers.  ds[name] of a dimension without a variable is 0, 1, 2, ...
    A variable that has the name of a dimension is a one-dimensional coordinate
    along it.  Attributes and data types are not modelled, nor are the limits of
    datetime64[ns] and the rounding of time stamps to microseconds
    (io.py:337-343); numeric times are returned by xarray as 0-d arrays and
    modelled as the number. *)
From Coq Require Export String.
From Verif Require Export Base Model_Grid Model_Time Model_Spectral Model_State Model_StateList.

Notation lab := (pyval numR).
Definition lab_eqb (a b : lab) : bool :=
  match a, b with
  | VNum x, VNum y => Reqb x y
  | VDate x, VDate y => Z.eqb x y
  | VDelta x, VDelta y => Z.eqb x y
  | _, _ => false
  end.
(** numeric content; non-numeric data of fields and lon/lat are outside the model *)
Definition lab_num (a : lab) : R := match a with VNum x => x | _ => 0 end.

(** a variable: coordinate or not, dimensions, element at a multi-index *)
Record xvar := mkVar { x_coord : bool; x_dims : list string; x_at : list nat -> lab }.
Record dataset := mkDs { ds_size : string -> nat; ds_vars : list (string * xvar) }.

Fixpoint assoc {A} (l : list (string * A)) (k : string) : option A :=
  match l with
  | [] => None
  | (k', a) :: l => if String.eqb k k' then Some a else assoc l k
  end.
Definition mem (k : string) (l : list string) : bool := existsb (String.eqb k) l.

(** name in ds *)
Definition ds_has (ds : dataset) (name : string) : bool :=
  match assoc (ds_vars ds) name with Some _ => true | None => false end.
Definition is_dim (ds : dataset) (name : string) : bool :=
  existsb (fun nv => mem name (x_dims (snd nv))) (ds_vars ds).
Definition arange_var (name : string) : xvar :=
  mkVar true [name] (fun idx => @VNum numR (INR (hd 0%nat idx))).
(** ds[name] *)
Definition ds_get (ds : dataset) (name : string) : res xvar :=
  match assoc (ds_vars ds) name with
  | Some v => Ok v
  | None => if is_dim ds name then Ok (arange_var name) else Err KeyError
  end.
(** ds.coords[name] *)
Definition ds_coord (ds : dataset) (name : string) : res xvar :=
  do v <- ds_get ds name; if x_coord v then Ok v else Err KeyError.

(** ds.squeeze() *)
Fixpoint unsqueeze (size : string -> nat) (dims : list string) (idx : list nat) : list nat :=
  match dims with
  | [] => []
  | d :: dims => if Nat.eqb (size d) 1 then 0%nat :: unsqueeze size dims idx
                 else match idx with i :: idx => i :: unsqueeze size dims idx | [] => 0%nat :: unsqueeze size dims [] end
  end.
Definition squeeze_var (size : string -> nat) (v : xvar) : xvar :=
  mkVar (x_coord v) (filter (fun d => negb (Nat.eqb (size d) 1)) (x_dims v))
        (fun idx => x_at v (unsqueeze size (x_dims v) idx)).
Definition squeeze (ds : dataset) : dataset :=
  mkDs (ds_size ds) (map (fun nv => (fst nv, squeeze_var (ds_size ds) (snd nv))) (ds_vars ds)).

(** ** from_dataset *)
(** _VAR_NAMES, io.py:126-135 *)
Definition VAR_NAMES (ref : string) : list string :=
  match assoc [("lon", ["longitude"; "lon"]);
               ("lat", ["latitude"; "lat"]);
               ("time", ["time"]);
               ("u", ["u"; "ugrd"; "eastward_wind"]);
               ("v", ["v"; "vgrd"; "northward_wind"]);
               ("vo", ["vo"; "relv"; "vorticity"; "relative_vorticity"]);
               ("avo", ["avo"; "absv"; "absolute_vorticity"; "pv"])]%string ref with
  | Some l => l | None => []
  end.
(** _select_var, io.py:137-143; the override argument is never given *)
Fixpoint select_var (ds : dataset) (names : list string) : option string :=
  match names with
  | [] => None
  | n :: names => if ds_has ds n then Some n else select_var ds names
  end.
(** var_map[ref], io.py:254-259; [names] is a dictionary *)
Definition var_map (ds : dataset) (names : list (string * option string)) (ref : string) : option string :=
  match assoc names ref with Some n => n | None => select_var ds (VAR_NAMES ref) end.

(** values of a one-dimensional variable *)
Definition values1 (ds : dataset) (v : xvar) : list lab :=
  tab (match x_dims v with [d] => ds_size ds d | _ => 0%nat end) (fun i => x_at v [i]).

(** io.py:261-271: name, values and spacing of the longitude coordinate *)
Definition check_lon (ds : dataset) (name : option string) : res (string * vec * R) :=
  match name with
  | None => Err ValueError
  | Some n =>
      do v <- ds_coord ds n;
      passert (Nat.eqb (length (x_dims v)) 1) (
      let lon := map lab_num (values1 ds v) in
      passert (Nat.ltb 0 (length lon)) (
      match vdiff lon with
      | [] => Err IndexError
      | dlon :: _ =>
          passert (forallb (fun d => isclose dlon d) (vdiff lon)) (
          passert (Rltb 0 dlon) (
          passert (isclose (last lon 0 - hd 0 lon) (360 - dlon))
            (Ok (n, lon, dlon))))
      end))
  end.
(** io.py:273-284 *)
Definition check_lat (ds : dataset) (name : option string) (lon : vec) (dlon : R) : res (string * vec) :=
  match name with
  | None => Err ValueError
  | Some n =>
      do v <- ds_coord ds n;
      passert (Nat.eqb (length (x_dims v)) 1) (
      let lat := map lab_num (values1 ds v) in
      passert (Nat.ltb 0 (length lat)) (
      passert (Nat.eqb (length lat - 1) (Nat.div (length lon) 2)) (
      match vdiff lat with
      | [] => Err IndexError
      | dlat :: _ =>
          passert (forallb (fun d => isclose dlat d) (vdiff lat)) (
          passert (Rltb dlat 0) (
          passert (isclose dlat (- dlon)) (Ok (n, lat))))
      end)))
  end.

(** the variable(s) the states are constructed from, io.py:290-315 *)
Inductive source := FromWind (u v : xvar) | FromVo (x : xvar) | FromAvo (x : xvar).
Definition source_data (s : source) : xvar :=
  match s with FromWind u _ => u | FromVo x => x | FromAvo x => x end.
Fixpoint dims_eqb (a b : list string) : bool :=
  match a, b with
  | [], [] => true
  | x :: a, y :: b => String.eqb x y && dims_eqb a b
  | _, _ => false
  end.
Definition choose_source (ds : dataset) (names : list (string * option string)) : res source :=
  match var_map ds names "u", var_map ds names "v" with
  | Some nu, Some nv =>
      do u <- ds_get ds nu; do v <- ds_get ds nv;
      passert (dims_eqb (x_dims u) (x_dims v)) (Ok (FromWind u v))
  | _, _ =>
      match var_map ds names "vo" with
      | Some n => do x <- ds_get ds n; Ok (FromVo x)
      | None =>
          match var_map ds names "avo" with
          | Some n => do x <- ds_get ds n; Ok (FromAvo x)
          | None => Err ValueError
          end
      end
  end.

(** data.coords[dim].values, io.py:323; a dimension without coordinate counts 0, 1, ... *)
Definition dim_coord (ds : dataset) (d : string) : option xvar :=
  match assoc (ds_vars ds) d with
  | Some v => if x_coord v then Some v else None
  | None => None
  end.
Definition dim_labels (ds : dataset) (d : string) : list lab :=
  let v := match dim_coord ds d with Some v => v | None => arange_var d end in
  tab (ds_size ds d) (fun i => x_at v [i]).
(** itertools.product *)
Fixpoint product {A} (l : list (list A)) : list (list A) :=
  match l with
  | [] => [[]]
  | xs :: l => flat_map (fun x => map (cons x) (product l)) xs
  end.
(** position selected by .sel({dim: label}).  A label that occurs more than once
    keeps the dimension, and the State constructors reject the result because
    it does not have two dimensions. *)
Definition sel_index (labels : list lab) (x : lab) : res nat :=
  match filter (fun i => lab_eqb (nth i labels (@VNum numR 0)) x) (seq 0 (length labels)) with
  | [i] => Ok i
  | [] => Err KeyError
  | _ => Err ValueError
  end.
Fixpoint sel_indices (labels : list (list lab)) (sel : list lab) : res (list nat) :=
  match labels, sel with
  | ls :: labels, x :: sel => do i <- sel_index ls x; do is <- sel_indices labels sel; Ok (i :: is)
  | _, _ => Ok []
  end.

(** index along dimension [d] when [dims] are at [idx] *)
Fixpoint index_of (dims : list string) (idx : list nat) (d : string) : nat :=
  match dims, idx with
  | d' :: dims, i :: idx => if String.eqb d d' then i else index_of dims idx d
  | _, _ => 0%nat
  end.
(** io.py:334-343: the coordinates of a variable are those whose dimensions are
    all dimensions of the variable.  A time for every gridpoint is outside the
    model (TypeError). *)
Definition time_of (ds : dataset) (tname : option string) (extra latlon : list string) (idx : list nat) (time_fill : lab) : res lab :=
  match tname with
  | None => Ok time_fill
  | Some t =>
      match assoc (ds_vars ds) t with
      | Some v =>
          if x_coord v && forallb (fun d => mem d (extra ++ latlon)) (x_dims v) then
            if forallb (fun d => mem d extra) (x_dims v) then Ok (x_at v (map (index_of extra idx) (x_dims v)))
            else Err TypeError
          else Ok time_fill
      | None => Ok time_fill
      end
  end.

(** as_state, io.py:298-310.  In the case of the wind, v is selected with the
    coordinates of the selected u (:301), which requires that they exist. *)
Definition slab_at (x : xvar) (nlat nlon : nat) (idx : list nat) : mat :=
  mat_of nlat nlon (fun i j => lab_num (x_at x (idx ++ [i; j]))).
Definition as_state (T : sphfam) (g : grid) (ds : dataset) (src : source) (extra : list string)
    (nlat nlon : nat) (idx : list nat) (time : lab) : res (state numR) :=
  let same_shape := Nat.eqb nlat (g_nlat g) && Nat.eqb nlon (g_nlon g) in
  match src with
  | FromWind u v =>
      if forallb (fun d => match dim_coord ds d with Some _ => true | None => false end) extra then
        if same_shape then state_from_wind T g time (slab_at u nlat nlon idx) (slab_at v nlat nlon idx)
        else Err ValueError
      else Err KeyError
  | FromVo x => if same_shape then state_from_vorticity T g time (slab_at x nlat nlon idx) else Err ValueError
  | FromAvo x => if same_shape then state_init T g time (Some (slab_at x nlat nlon idx)) None else Err ValueError
  end.

(** io.py:318-322: data.dims[-2], data.dims[-1] *)
Definition split_dims (dims : list string) : res (list string * string * string) :=
  match rev dims with
  | d1 :: d2 :: r => Ok (rev r, d2, d1)
  | _ => Err IndexError
  end.

(** from_dataset, io.py:145-347.  [ds] is a Dataset (a named DataArray is the
    Dataset with that one variable); grid_kwargs after filling in the defaults
    of Grid are rsphere, omega and ntrunc. *)
Definition from_dataset (T : sphfam) (ds : dataset) (names : list (string * option string))
    (rsphere omega : R) (ntrunc : option Z) (time_fill : lab) : res (list (state numR)) :=
  let ds := squeeze ds in
  let vm := var_map ds names in
  do (lon_name, lon, dlon) <- check_lon ds (vm "lon"%string);
  do (lat_name, lat) <- check_lat ds (vm "lat"%string) lon dlon;
  do g <- mk_grid dlon rsphere omega ntrunc;
  do src <- choose_source ds names;
  let data := source_data src in
  do (extra, d2, d1) <- split_dims (x_dims data);
  passert (String.eqb d2 lat_name) (
  passert (String.eqb d1 lon_name) (
  let labels := map (dim_labels ds) extra in
  do states <- res_map (fun selection =>
      do idx <- sel_indices labels selection;
      do time <- time_of ds (vm "time"%string) extra [d2; d1] idx time_fill;
      as_state T g ds src extra (ds_size ds d2) (ds_size ds d1) idx time) (product labels);
  mk_statelist (E := R) (O := unit) (map XState states))).

(** ** as_dataset *)
(** row-major position of a multi-index *)
Fixpoint flat_index (shape idx : list nat) : nat :=
  match shape, idx with
  | n :: shape, i :: idx => (i * size_of shape + flat_index shape idx)%nat
  | _, _ => 0%nat
  end.
Definition nd_var (dims : list string) (a : ndarr R) : xvar :=
  mkVar false dims (fun idx => @VNum numR (nth (flat_index (nd_shape a) idx) (nd_data a) 0)).
Definition vec_coord (name : string) (l : list lab) : xvar :=
  mkVar true [name] (fun idx => nth (hd 0%nat idx) l (@VNum numR 0)).

Notation fvalue := (value numR R unit).
(** io.py:105-118: dimensions by shape *)
Definition field_dims (g : grid) (concat_dim : string) (shape : list nat) : res (list string) :=
  match shape with
  | [_; _; _] => Ok [concat_dim; "latitude"; "longitude"]%string
  | [_; n] => if Nat.eqb n (g_nlat g) then Ok [concat_dim; "latitude"]%string
              else if Nat.eqb n (g_nlon g) then Ok [concat_dim; "longitude"]%string
              else Err NotImplementedError
  | [_] => Ok [concat_dim]
  | _ => Err NotImplementedError
  end.
(** io.py:102-119, one field; [getter] is the attribute or the callable.  Results
    that are not arrays have no ndim. *)
Definition export_field (g : grid) (states : list (state numR)) (concat_dim : string)
    (getter : state numR -> res fvalue) : res (list nat * xvar) :=
  do values <- sl_map getter states;
  match values with
  | CArray a => do dims <- field_dims g concat_dim (nd_shape a); Ok (nd_shape a, nd_var dims a)
  | _ => Err AttributeError
  end.

(** sizes of the dimensions of the new dataset *)
Definition out_size (g : grid) (n : nat) (concat_dim d : string) : nat :=
  if String.eqb d "latitude" then g_nlat g
  else if String.eqb d "longitude" then g_nlon g
  else if String.eqb d "time" || String.eqb d concat_dim then n else 0%nat.
Definition fits (size : string -> nat) (shape : list nat) (v : xvar) : bool :=
  shape_eqb shape (map size (x_dims v)).

(** io.py:88-94: an attribute of the states becomes the coordinate of the
    concatenation dimension, arange if there is no such attribute *)
Definition concat_coord (states : list (state numR)) (concat_dim : string)
    (attr : option (state numR -> res fvalue)) : res (list (string * xvar)) :=
  if String.eqb concat_dim "time" then Ok []
  else match attr with
       | None => Ok [(concat_dim, arange_var concat_dim)]
       | Some f =>
           do values <- sl_map f states;
           match values with
           | CArray (mkNd [_] d) => Ok [(concat_dim, vec_coord concat_dim (map (@VNum numR) d))]
           | _ => Err ValueError
           end
       end.

(** as_dataset, io.py:11-123.  [fields] lists names and getters, [attr] is the
    State attribute called [concat_dim] if there is one.  xarray raises
    ValueError if a field has the name of a coordinate or does not fit the sizes
    of its dimensions (:121).  [concat_dim] is neither latitude nor longitude. *)
Definition as_dataset (states : list fvalue) (fields : list (string * (state numR -> res fvalue)))
    (concat_dim : string) (attr : option (state numR -> res fvalue)) : res dataset :=
  match states with
  | [] => Ok (mkDs (fun _ => 0%nat) [])
  | _ :: _ =>
      do sts <- mk_statelist states;
      match sl_grid sts with
      | None => Err AttributeError
      | Some g =>
          let n := length sts in
          do cc <- concat_coord sts concat_dim attr;
          let coords := [("latitude", vec_coord "latitude" (map (@VNum numR) (g_lat g)));
                         ("longitude", vec_coord "longitude" (map (@VNum numR) (g_lon g)));
                         ("time", vec_coord "time" (map s_time sts))]%string ++ cc in
          do vars <- res_map (fun f => do (shape, v) <- export_field g sts concat_dim (snd f); Ok (fst f, (shape, v))) fields;
          if existsb (fun f => mem (fst f) (map fst coords)) fields then Err ValueError
          else if forallb (fun f => fits (out_size g n concat_dim) (fst (snd f)) (snd (snd f))) vars
          then Ok (mkDs (out_size g n concat_dim) (coords ++ map (fun f => (fst f, snd (snd f))) vars))
          else Err ValueError
      end
  end.

(** the getters of the default fields and of the PV *)
Definition grid_array (m : mat) : ndarr R := mkNd [length m; ncols m] (concat m).
Definition get_u (T : sphfam) (s : state numR) : res fvalue := Ok (XArr (grid_array (s_u T s))).
Definition get_v (T : sphfam) (s : state numR) : res fvalue := Ok (XArr (grid_array (s_v T s))).
Definition get_pv (T : sphfam) (s : state numR) : res fvalue := Ok (XArr (grid_array (s_pv T s))).
