(** Vocabulary for the statements about as_dataset and from_dataset, written
    without the helpers of Model_IO.v (only the representation of Datasets is
    shared). *)
From Coq Require Export String.
From Verif Require Export Base Model_Grid Model_Time Model_Spectral Model_State Model_StateList Model_IO.
From Verif Require Export Spec_Spectral Spec_State Spec_StateList.
Local Open Scope string_scope.
From Coq Require Export List.
Export ListNotations.

(** Value of a variable when every dimension is at the given position. *)
Definition at_pos (v : xvar) (pos : string -> nat) : lab := x_at v (map pos (x_dims v)).

(** xarray's data model: no two variables have the same name, the dimensions of
    a variable are different, a variable with the name of a dimension is its
    coordinate *)
Definition is_dimension (ds : dataset) (d : string) : Prop :=
  exists n v, In (n, v) (ds_vars ds) /\ In d (x_dims v).
Definition valid_ds (ds : dataset) : Prop :=
  NoDup (map fst (ds_vars ds))
  /\ forall n v, In (n, v) (ds_vars ds) ->
       NoDup (x_dims v) /\ (is_dimension ds n -> x_coord v = true /\ x_dims v = [n]).
(** dimensions left after squeezing *)
Definition long_dims (ds : dataset) (v : xvar) : list string :=
  filter (fun d => negb (Nat.eqb (ds_size ds d) 1)) (x_dims v).

(** What a name stands for: a variable, or the positions along a dimension
    without coordinate. *)
Inductive named (ds : dataset) (n : string) : xvar -> Prop :=
| named_var v : In (n, v) (ds_vars ds) -> named ds n v
| named_dim : ~ In n (map fst (ds_vars ds)) -> is_dimension ds n -> ds_size ds n <> 1%nat ->
    named ds n (mkVar true [n] (fun idx => @VNum numR (INR (hd 0%nat idx)))).

(** Names from the documentation of from_dataset (io.py:126-135, :170-200). *)
Definition documented (ref : string) : list string :=
  if String.eqb ref "lon" then ["longitude"; "lon"]
  else if String.eqb ref "lat" then ["latitude"; "lat"]
  else if String.eqb ref "time" then ["time"]
  else if String.eqb ref "u" then ["u"; "ugrd"; "eastward_wind"]
  else if String.eqb ref "v" then ["v"; "vgrd"; "northward_wind"]
  else if String.eqb ref "vo" then ["vo"; "relv"; "vorticity"; "relative_vorticity"]
  else if String.eqb ref "avo" then ["avo"; "absv"; "absolute_vorticity"; "pv"]
  else [].
(** The name used for a quantity: the one given by the user; otherwise the first
    documented name that exists in the dataset. *)
Inductive picks (ds : dataset) (names : list (string * option string)) (ref : string) : option string -> Prop :=
| picks_given o : In (ref, o) names -> picks ds names ref o
| picks_found before n after : ~ In ref (map fst names) -> documented ref = before ++ n :: after ->
    In n (map fst (ds_vars ds)) -> (forall m, In m before -> ~ In m (map fst (ds_vars ds))) ->
    picks ds names ref (Some n)
| picks_nothing : ~ In ref (map fst names) -> (forall m, In m (documented ref) -> ~ In m (map fst (ds_vars ds))) ->
    picks ds names ref None.

(** The variables the states are constructed from. *)
Inductive origin (ds : dataset) (names : list (string * option string)) : source -> Prop :=
| origin_wind nu nv u v : picks ds names "u" (Some nu) -> picks ds names "v" (Some nv) ->
    named ds nu u -> named ds nv v -> origin ds names (FromWind u v)
| origin_vo n x : picks ds names "u" None \/ picks ds names "v" None ->
    picks ds names "vo" (Some n) -> named ds n x -> origin ds names (FromVo x)
| origin_avo n x : picks ds names "u" None \/ picks ds names "v" None ->
    picks ds names "vo" None -> picks ds names "avo" (Some n) -> named ds n x -> origin ds names (FromAvo x).

(** Regular coordinates, up to the tolerance of np.isclose. *)
Definition near (a b : R) : Prop := Rabs (a - b) <= / 100000000 + / 100000 * Rabs b.
Definition spaced (x : vec) (d : R) : Prop :=
  (2 <= List.length x)%nat /\ nth 1 x 0 - nth 0 x 0 = d
  /\ forall k, (S k < List.length x)%nat -> near d (nth (S k) x 0 - nth k x 0).
Definition regular_lon (lon : vec) (dlon : R) : Prop :=
  spaced lon dlon /\ 0 < dlon
  /\ near (nth (List.length lon - 1) lon 0 - nth 0 lon 0) (360 - dlon).
Definition regular_lat (lat : vec) (nlon : nat) (dlon : R) : Prop :=
  (List.length lat - 1 = Nat.div nlon 2)%nat
  /\ exists dlat, spaced lat dlat /\ dlat < 0 /\ near dlat (- dlon).
(** [x] are the values of the coordinate called [n] *)
Definition coordinate (ds : dataset) (n : string) (x : vec) : Prop :=
  exists v d, named ds n v /\ x_coord v = true /\ long_dims ds v = [d]
    /\ List.length x = ds_size ds d
    /\ forall k, (k < ds_size ds d)%nat -> nth k x 0 = lab_num (at_pos v (fun e => if String.eqb e d then k else 0%nat)).

(** Position of every dimension for element (i, j) of the slab with multi-index
    [idx] in the dimensions [extra]. *)
Fixpoint place (extra : list string) (idx : list nat) (d : string) : nat :=
  match extra, idx with
  | e :: extra, k :: idx => if String.eqb d e then k else place extra idx d
  | _, _ => 0%nat
  end.
Definition slab_pos (extra : list string) (idx : list nat) (latn lonn : string) (i j : nat) : string -> nat :=
  place (extra ++ [latn; lonn]) (idx ++ [i; j]).
Definition field_slab (g : grid) (x : xvar) (extra : list string) (idx : list nat) (latn lonn : string) : mat :=
  mat_of (g_nlat g) (g_nlon g) (fun i j => lab_num (at_pos x (slab_pos extra idx latn lonn i j))).
(** row-major number of a multi-index (Horner scheme) *)
Definition row_major (sizes idx : list nat) : nat :=
  fold_left (fun acc ni => (acc * fst ni + snd ni)%nat) (combine sizes idx) 0%nat.
Definition in_range (idx sizes : list nat) : Prop := Forall2 lt idx sizes.

(** Time of a slab: the value of the time coordinate of the data there, the fill
    value if the data have no such coordinate. *)
Definition time_coord (ds : dataset) (names : list (string * option string)) (dims : list string) (v : xvar) : Prop :=
  exists n, picks ds names "time" (Some n) /\ In (n, v) (ds_vars ds) /\ x_coord v = true
    /\ incl (long_dims ds v) dims.
Definition slab_time (ds : dataset) (names : list (string * option string)) (extra : list string) (idx : list nat)
    (latn lonn : string) (time_fill t : lab) : Prop :=
  (exists v, time_coord ds names extra v /\ t = at_pos v (place extra idx))
  \/ ((forall v, ~ time_coord ds names (extra ++ [latn; lonn]) v) /\ t = time_fill).

(** The state constructed from a slab. *)
Definition slab_state (T : sphfam) (g : grid) (src : source) (extra : list string) (idx : list nat)
    (latn lonn : string) (t : lab) : res (state numR) :=
  match src with
  | FromWind u v => state_from_wind T g t (field_slab g u extra idx latn lonn) (field_slab g v extra idx latn lonn)
  | FromVo x => state_from_vorticity T g t (field_slab g x extra idx latn lonn)
  | FromAvo x => state_init T g t (Some (field_slab g x extra idx latn lonn)) None
  end.
(** the dimensions in front of latitude and longitude *)
Definition data_dims (ds : dataset) (src : source) (extra : list string) (latn lonn : string) : Prop :=
  long_dims ds (source_data src) = extra ++ [latn; lonn].

(** no value occurs twice along a dimension *)
Definition distinct_labels (ds : dataset) (d : string) : Prop :=
  forall x i j, named ds d x -> (i < ds_size ds d)%nat -> (j < ds_size ds d)%nat ->
    x_at x [i] = x_at x [j] -> i = j.

(** Export: the value of one field for state number k has the shape [shape] (no
    dimensions: a number) and its elements in row-major order are [data k]. *)
Definition field_value (v : fvalue) (shape : list nat) (data : list R) : Prop :=
  (v = XArr (mkNd shape data)) \/ (shape = [] /\ exists x, data = [x] /\ v = XNum x).

(** [datas]: the row-major elements of the field for every state, all of the shape [shape] *)
Definition stacked (getter : state numR -> res fvalue) (sts : list (state numR)) (shape : list nat) (datas : list vec) : Prop :=
  Forall2 (fun s d => exists x, getter s = Ok x /\ field_value x shape d) sts datas.
(** the dimensions that belong to a shape *)
Definition inner_dims (g : grid) (shape : list nat) (inner : list string) : Prop :=
  (shape = [] /\ inner = [])
  \/ (shape = [g_nlat g] /\ inner = ["latitude"])
  \/ (shape = [g_nlon g] /\ inner = ["longitude"])
  \/ (shape = [g_nlat g; g_nlon g] /\ inner = ["latitude"; "longitude"]).

(** the same gridpoints with the spacing of the longitudes as resolution *)
Definition respaced (g : grid) : grid :=
  mkGrid (360 / INR (g_nlon g)) (g_rsphere g) (g_omega g) (g_nlon g) (g_nlat g) (g_ntrunc g).
(** the same state on that grid *)
Definition moved (g : grid) (s : state numR) : state numR := mkState (respaced g) (s_time s) (s_pvs s).
