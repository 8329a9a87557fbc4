(** Property theorems C06-C08 (cell areas, means), C47-C51, C85, C86 (regions). *)
From Verif Require Import Base Model_Grid Model_Region Spec_Grid Spec_Region
  Proofs_Base Proofs_Grid Proofs_Region.
From Coq Require Import Lia Lra.

(** C06: every cell is a strip of a sphere sector of width dlam between its
    northern and southern edge, positive, symmetric about the equator. *)
Theorem C06_cell_areas_partial : forall res rs om nt g, mk_grid res rs om nt = Ok g ->
  length (gridpoint_area g) = g_nlat g
  /\ (forall i, (i < g_nlat g)%nat -> 0 < nth i (gridpoint_area g) 0)
  /\ (forall i, (i < g_nlat g)%nat ->
        nth i (gridpoint_area g) 0 = nth (g_nlat g - 1 - i) (gridpoint_area g) 0)
  /\ (exists edge : nat -> R, edge 0%nat = PI / 2 /\ edge (g_nlat g) = - (PI / 2)
        /\ (forall i, (0 < i < g_nlat g)%nat ->
              edge i = (nth (i - 1) (g_phi g) 0 + nth i (g_phi g) 0) / 2)
        /\ forall i, (i < g_nlat g)%nat -> edge (S i) < edge i
             /\ nth i (gridpoint_area g) 0 = sector_area rs (deg2rad res) (edge i) (edge (S i)))
  /\ (INR (g_nlon g) * Rsum (gridpoint_area g) = 4 * PI * (rs * rs) <-> is_integer (360 / res)).
Proof. exact cell_areas_lemma. Qed.
Print Assumptions C06_cell_areas_partial.

(** C06, the total is not the area of the sphere in general. *)
Theorem C06_total_area_refuted : exists res rs om g, mk_grid res rs om None = Ok g
  /\ INR (g_nlon g) * Rsum (gridpoint_area g) <> 4 * PI * (rs * rs).
Proof. exact total_area_refuted_lemma. Qed.
Print Assumptions C06_total_area_refuted.

(** C07.  The hypotheses [sel_rows <> []], [sel_cols <> []] say that the region
    is not empty. *)
Theorem C07_mean_constant : forall res rs om nt g rg, mk_grid res rs om nt = Ok g ->
  valid_region g rg -> sel_rows g rg <> [] -> sel_cols g rg <> [] ->
  forall ax m c, documented_axis ax -> shaped (g_nlat g) (g_nlon g) m ->
  (forall i j, In i (sel_rows g rg) -> In j (sel_cols g rg) -> mget m i j = c) ->
  exists r, grid_mean g (A2 m) ax rg = Ok r /\ result_values r <> []
    /\ forall x, In x (result_values r) -> x = c.
Proof. exact mean_constant. Qed.
Print Assumptions C07_mean_constant.

Theorem C07_mean_linear : forall res rs om nt g rg, mk_grid res rs om nt = Ok g ->
  valid_region g rg -> sel_rows g rg <> [] -> sel_cols g rg <> [] ->
  forall ax m h a b, documented_axis ax -> shaped (g_nlat g) (g_nlon g) m ->
  shaped (g_nlat g) (g_nlon g) h ->
  exists rm rh rc, grid_mean g (A2 m) ax rg = Ok rm /\ grid_mean g (A2 h) ax rg = Ok rh
    /\ grid_mean g (A2 (madd (mscale a m) (mscale b h))) ax rg = Ok rc
    /\ result_values rc = vadd (vscale a (result_values rm)) (vscale b (result_values rh)).
Proof. exact mean_linear. Qed.
Print Assumptions C07_mean_linear.

Theorem C07_mean_bounds : forall res rs om nt g rg, mk_grid res rs om nt = Ok g ->
  valid_region g rg -> sel_rows g rg <> [] -> sel_cols g rg <> [] ->
  forall ax m lo hi, documented_axis ax -> shaped (g_nlat g) (g_nlon g) m ->
  (forall i j, In i (sel_rows g rg) -> In j (sel_cols g rg) -> lo <= mget m i j <= hi) ->
  exists r, grid_mean g (A2 m) ax rg = Ok r /\ forall x, In x (result_values r) -> lo <= x <= hi.
Proof. exact mean_bounds. Qed.
Print Assumptions C07_mean_bounds.

Theorem C07_mean_of_zonal_means : forall res rs om nt g rg, mk_grid res rs om nt = Ok g ->
  valid_region g rg -> sel_rows g rg <> [] -> sel_cols g rg <> [] ->
  forall m, shaped (g_nlat g) (g_nlon g) m ->
  exists x v, grid_mean g (A2 m) AxNone rg = Ok (MScalar x)
    /\ grid_mean g (A2 m) (AxStr "zonal") rg = Ok (MProfile v)
    /\ length v = length (sel_rows g rg)
    /\ x = Rsum (vmul (map (fun i => nth i (gridpoint_area g) 0) (sel_rows g rg)) v)
           / Rsum (map (fun i => nth i (gridpoint_area g) 0) (sel_rows g rg)).
Proof. exact mean_decompose. Qed.
Print Assumptions C07_mean_of_zonal_means.

(** The three kinds of means as explicit weighted averages of the selected
    values, with positive weights (the gridpoint areas). *)
Theorem C07_mean_formula : forall res rs om nt g, mk_grid res rs om nt = Ok g -> forall rg m,
  valid_region g rg -> shaped (g_nlat g) (g_nlon g) m ->
  sel_rows g rg <> [] -> sel_cols g rg <> [] ->
  let I := sel_rows g rg in let J := sel_cols g rg in
  let area i := nth i (gridpoint_area g) 0 in
  (forall i, In i I -> 0 < area i)
  /\ grid_mean g (A2 m) AxNone rg = Ok (MScalar (weighted_mean area I J (mget m)))
  /\ grid_mean g (A2 m) (AxStr "meridional") rg
        = Ok (MProfile (map (fun j => weighted_mean area I [j] (mget m)) J))
  /\ grid_mean g (A2 m) (AxStr "zonal") rg
        = Ok (MProfile (map (fun i => weighted_mean area [i] J (mget m)) I)).
Proof. exact mean_formula_named. Qed.
Print Assumptions C07_mean_formula.

Example C07_nonvacuous : exists g, mk_grid 90 1 0 None = Ok g
  /\ valid_region g (Some regionP) /\ sel_rows g (Some regionP) <> [] /\ sel_cols g (Some regionP) <> []
  /\ shaped (g_nlat g) (g_nlon g) (mat_of 3 4 (fun i j => INR (i + j))).
Proof.
  exists (gridA 1). split; [apply gridA_ok; lra|]. split; [eexists; apply regionP_ok|].
  split; [easy|]. split; [easy|]. apply shaped_mat_of.
Qed.

(** C08 *)
Theorem C08_mean_axis_synonyms : forall g f rg,
  grid_mean g f (AxNum 0) rg = grid_mean g f (AxStr "meridional") rg
  /\ grid_mean g f (AxNum (-2)) rg = grid_mean g f (AxStr "meridional") rg
  /\ grid_mean g f (AxNum 1) rg = grid_mean g f (AxStr "zonal") rg
  /\ grid_mean g f (AxNum (-1)) rg = grid_mean g f (AxStr "zonal") rg.
Proof. exact mean_axis_synonyms. Qed.
Print Assumptions C08_mean_axis_synonyms.

Theorem C08_mean_bad_axis : forall res rs om nt g rg m ax, mk_grid res rs om nt = Ok g ->
  valid_region g rg -> shaped (g_nlat g) (g_nlon g) m -> ~ documented_axis ax ->
  grid_mean g (A2 m) ax rg = Err ValueError.
Proof. exact mean_bad_axis. Qed.
Print Assumptions C08_mean_bad_axis.

Theorem C08_mean_bad_shape : forall g rg f ax,
  match f with
  | A2 m => ~ shaped (g_nlat g) (g_nlon g) m
            /\ match rg with None => True
               | Some r => ~ shaped (fst (region_shape r)) (snd (region_shape r)) m end
  | _ => True
  end -> grid_mean g f ax rg = Err AssertionError.
Proof. exact mean_bad_shape. Qed.
Print Assumptions C08_mean_bad_shape.

Example C08_nonvacuous : ~ documented_axis (AxNum 2) /\ ~ documented_axis (AxStr "lat")
  /\ ~ shaped 3 4 [[1; 2]; [3; 4]].
Proof.
  unfold documented_axis. repeat split.
  - intros [H|[H|[H|[H|[H|[H|H]]]]]]; try discriminate; injection H; lra.
  - intros [H|[H|[H|[H|[H|[H|H]]]]]]; try discriminate; injection H; lra.
  - intros [H _]. simpl in H. discriminate.
Qed.

(** C47 *)
Theorem C47_latitude_slices : forall res rs om nt g, mk_grid res rs om nt = Ok g ->
  forall a b slon rg, region_getitem g (IdxTuple [slon; SelSlice a b false]) = Ok rg ->
  strictly_decreasing (region_lat rg) /\
  exactly (g_lat g) (fun y =>
    match a, b with
    | BNone, BNone => True
    | BNone, BNum h => y <= h
    | BNum l, BNone => l <= y
    | BNum l, BNum h => Rmin l h <= y <= Rmax l h
    | _, _ => False
    end) (region_lat rg).
Proof. exact latitude_slices. Qed.
Print Assumptions C47_latitude_slices.

Theorem C47_hemispheres : forall res rs om nt g, mk_grid res rs om nt = Ok g ->
  forall t slon rg, region_getitem g (IdxTuple [slon; SelStr t]) = Ok rg ->
  strictly_decreasing (region_lat rg) /\
  ((t = "N"%string /\ exactly (g_lat g) (fun y => 0 <= y) (region_lat rg))
   \/ (t = "S"%string /\ exactly (g_lat g) (fun y => y <= 0) (region_lat rg))).
Proof. exact hemispheres. Qed.
Print Assumptions C47_hemispheres.

(** all slices with numeric or open bounds are accepted *)
Theorem C47_slices_accepted : forall res rs om nt g, mk_grid res rs om nt = Ok g ->
  forall a b c d, a <> BOther -> b <> BOther -> c <> BOther -> d <> BOther ->
  exists rg, region_getitem g (IdxTuple [SelSlice a b false; SelSlice c d false]) = Ok rg.
Proof. exact slices_accepted. Qed.
Print Assumptions C47_slices_accepted.

Example C47_nonvacuous : region_getitem (gridA 1)
    (IdxTuple [SelSlice (BNum 200) (BNum 45) false; SelStr "N"]) = Ok regionP
  /\ region_lat regionP = [90; 0].
Proof.
  split; [apply regionP_ok|]. unfold region_lat. simpl rg_grid. rewrite gridA_lat. reflexivity.
Qed.

(** C48 *)
Theorem C48_longitude_slices : forall res rs om nt g, mk_grid res rs om nt = Ok g ->
  forall a b slat rg, region_getitem g (IdxTuple [SelSlice a b false; slat]) = Ok rg ->
  match a, b with
  | BNum l, BNum h =>
      if Rlt_dec h l then
        exists W E, region_lon rg = W ++ E
          /\ strictly_increasing W /\ exactly (g_lon g) (fun x => l <= x) W
          /\ strictly_increasing E /\ exactly (g_lon g) (fun x => x <= h) E
          /\ (forall x, In x W -> ~ In x E)
      else strictly_increasing (region_lon rg) /\ exactly (g_lon g) (fun x => l <= x <= h) (region_lon rg)
  | BNum l, _ => strictly_increasing (region_lon rg) /\ exactly (g_lon g) (fun x => l <= x) (region_lon rg)
  | _, BNum h => strictly_increasing (region_lon rg) /\ exactly (g_lon g) (fun x => x <= h) (region_lon rg)
  | _, _ => region_lon rg = g_lon g
  end.
Proof. exact longitude_slices. Qed.
Print Assumptions C48_longitude_slices.

Example C48_nonvacuous : region_getitem (gridA 1)
    (IdxOne (SelSlice (BNum 90) (BNum 45) false)) = Ok regionW
  /\ region_lon regionW = [90; 180; 270; 0].
Proof.
  split; [apply regionW_ok|]. unfold region_lon. simpl rg_grid. rewrite gridA_lon. reflexivity.
Qed.

(** C49 *)
Theorem C49_lon_mono : forall res rs om nt g, mk_grid res rs om nt = Ok g ->
  forall arg rg, region_getitem g arg = Ok rg ->
  exists m, region_lon_mono rg = Ok m /\ strictly_increasing m
    /\ length m = length (region_lon rg)
    /\ (forall i, (i < length m)%nat ->
          nth i m 0 = nth i (region_lon rg) 0 \/ nth i m 0 = nth i (region_lon rg) 0 - 360)
    /\ (forall x y, In x m -> In y m -> y - x < 360)
    /\ (strictly_increasing (region_lon rg) -> m = region_lon rg).
Proof. exact lon_mono_lemma. Qed.
Print Assumptions C49_lon_mono.

Example C49_nonvacuous : region_lon_mono regionP = Ok [270 - 360; 0].
Proof. exact lon_mono_example. Qed.

(** C50 *)
Theorem C50_extract_field : forall res rs om nt g, mk_grid res rs om nt = Ok g ->
  forall arg rg, region_getitem g arg = Ok rg -> forall m, shaped (g_nlat g) (g_nlon g) m ->
  exists m', extract rg [A2 m] = Ok (ExOne (A2 m'))
    /\ shaped (fst (region_shape rg)) (snd (region_shape rg)) m'
    /\ length (region_lat rg) = fst (region_shape rg) /\ length (region_lon rg) = snd (region_shape rg)
    /\ (forall y, In y (region_lat rg) -> In y (g_lat g)) /\ (forall x, In x (region_lon rg) -> In x (g_lon g))
    /\ forall i j i' j', (i < fst (region_shape rg))%nat -> (j < snd (region_shape rg))%nat ->
         (i' < g_nlat g)%nat -> (j' < g_nlon g)%nat ->
         nth i' (g_lat g) 0 = nth i (region_lat rg) 0 -> nth j' (g_lon g) 0 = nth j (region_lon rg) 0 ->
         mget m' i j = mget m i' j'.
Proof. exact extract_field_lemma. Qed.
Print Assumptions C50_extract_field.

Theorem C50_extract_profiles : forall res rs om nt g, mk_grid res rs om nt = Ok g ->
  forall arg rg, region_getitem g arg = Ok rg -> forall v,
  (length v = g_nlat g ->
    exists v', extract rg [A1 v] = Ok (ExOne (A1 v')) /\ length v' = fst (region_shape rg)
    /\ forall i i', (i < length v')%nat -> (i' < g_nlat g)%nat ->
         nth i' (g_lat g) 0 = nth i (region_lat rg) 0 -> nth i v' 0 = nth i' v 0)
  /\ (length v = g_nlon g ->
    exists v', extract rg [A1 v] = Ok (ExOne (A1 v')) /\ length v' = snd (region_shape rg)
    /\ forall j j', (j < length v')%nat -> (j' < g_nlon g)%nat ->
         nth j' (g_lon g) 0 = nth j (region_lon rg) 0 -> nth j v' 0 = nth j' v 0)
  /\ g_nlat g <> g_nlon g.
Proof. exact extract_profiles_lemma. Qed.
Print Assumptions C50_extract_profiles.

Theorem C50_mask : forall res rs om nt g, mk_grid res rs om nt = Ok g ->
  forall arg rg, region_getitem g arg = Ok rg ->
  shaped (g_nlat g) (g_nlon g) (region_mask rg)
  /\ (forall i j, (i < g_nlat g)%nat -> (j < g_nlon g)%nat ->
       (nth j (nth i (region_mask rg) []) false = true
        <-> In (nth i (g_lat g) 0) (region_lat rg) /\ In (nth j (g_lon g) 0) (region_lon rg)))
  /\ count_true (region_mask rg) = (fst (region_shape rg) * snd (region_shape rg))%nat.
Proof. exact mask_lemma. Qed.
Print Assumptions C50_mask.

Theorem C50_extract_many : forall rg f1 f2 fs out, extract rg (f1 :: f2 :: fs) = Ok out <->
  exists l, out = ExTuple l /\ Forall2 (fun f a => extract rg [f] = Ok (ExOne a)) (f1 :: f2 :: fs) l.
Proof. exact extract_many. Qed.
Print Assumptions C50_extract_many.

Theorem C50_extract_errors : forall res rs om nt g, mk_grid res rs om nt = Ok g ->
  forall arg rg, region_getitem g arg = Ok rg ->
  extract rg [] = Err ValueError
  /\ forall f,
     match f with
     | A1 v => length v <> g_nlat g /\ length v <> g_nlon g
     | A2 m => ~ shaped (g_nlat g) (g_nlon g) m
     | AOther => True
     end -> extract rg [f] = Err ValueError.
Proof. exact extract_errors_lemma. Qed.
Print Assumptions C50_extract_errors.

Example C50_nonvacuous :
  extract regionP [A1 [10; 20; 30]; A1 [1; 2; 3; 4]; A2 [[1; 2; 3; 4]; [5; 6; 7; 8]; [9; 0; 1; 2]]]
  = Ok (ExTuple [A1 [10; 20]; A1 [4; 1]; A2 [[4; 1]; [8; 5]]]).
Proof. reflexivity. Qed.

(** C51 *)
Theorem C51_single_values : forall g x,
  (forall slat rg, region_getitem g (IdxTuple [SelNum x; slat]) = Ok rg ->
    exists c, region_lon rg = [c] /\ In c (g_lon g)
    /\ Rabs (c - x) <= / 100000000 + / 100000 * Rabs x
    /\ forall c', In c' (g_lon g) -> Rabs (c' - x) <= / 100000000 + / 100000 * Rabs x -> c' = c)
  /\ (forall slon rg, region_getitem g (IdxTuple [slon; SelNum x]) = Ok rg ->
    exists c, region_lat rg = [c] /\ In c (g_lat g)
    /\ Rabs (c - x) <= / 100000000 + / 100000 * Rabs x
    /\ forall c', In c' (g_lat g) -> Rabs (c' - x) <= / 100000000 + / 100000 * Rabs x -> c' = c).
Proof. intros g x. split; [exact (region_single g x)|exact (region_single_lat g x)]. Qed.
Print Assumptions C51_single_values.

(** a coordinate of the grid, up to the tolerance, is found *)
Theorem C51_single_found : forall res rs om nt g, mk_grid res rs om nt = Ok g ->
  (forall c, In c (g_lon g) -> (forall c', In c' (g_lon g) -> c' <> c -> / 100000000 + / 100000 * Rabs c < Rabs (c' - c)) ->
     exists rg, region_getitem g (IdxOne (SelNum c)) = Ok rg /\ region_lon rg = [c]).
Proof. exact single_found. Qed.
Print Assumptions C51_single_found.

Theorem C51_only_index_errors : forall res rs om nt g, mk_grid res rs om nt = Ok g ->
  forall arg e, region_getitem g arg = Err e -> e = IndexError.
Proof. exact only_index_errors. Qed.
Print Assumptions C51_only_index_errors.

Theorem C51_malformed : forall res rs om nt g, mk_grid res rs om nt = Ok g ->
  (forall l, length l <> 2%nat -> region_getitem g (IdxTuple l) = Err IndexError)
  /\ (forall t slat, region_getitem g (IdxTuple [SelStr t; slat]) = Err IndexError)
  /\ (forall slon t, t <> "N"%string -> t <> "S"%string ->
        region_getitem g (IdxTuple [slon; SelStr t]) = Err IndexError)
  /\ (forall a b slat, region_getitem g (IdxTuple [SelSlice a b true; slat]) = Err IndexError)
  /\ (forall a b slon, region_getitem g (IdxTuple [slon; SelSlice a b true]) = Err IndexError)
  /\ (forall b st slat, region_getitem g (IdxTuple [SelSlice BOther b st; slat]) = Err IndexError)
  /\ (forall a st slat, region_getitem g (IdxTuple [SelSlice a BOther st; slat]) = Err IndexError)
  /\ (forall b st slon, region_getitem g (IdxTuple [slon; SelSlice BOther b st]) = Err IndexError)
  /\ (forall a st slon, region_getitem g (IdxTuple [slon; SelSlice a BOther st]) = Err IndexError)
  /\ (forall slat, region_getitem g (IdxTuple [SelOther; slat]) = Err IndexError)
  /\ (forall slon, region_getitem g (IdxTuple [slon; SelOther]) = Err IndexError).
Proof. exact malformed. Qed.
Print Assumptions C51_malformed.

Theorem C51_repr_partial : forall rg, region_lat rg <> [] -> region_lon rg <> [] ->
  exists r, grid_region_repr rg = Ok r.
Proof. exact repr_nonempty. Qed.
Print Assumptions C51_repr_partial.

(** an empty region can be made but not displayed *)
Theorem C51_repr_refuted : exists g rg, mk_grid 90 1 0 None = Ok g
    /\ region_getitem g (IdxTuple [SelSlice BNone BNone false; SelSlice (BNum 10) (BNum 20) false]) = Ok rg
    /\ grid_region_repr rg = Err IndexError.
Proof. exact region_repr_empty_witness. Qed.
Print Assumptions C51_repr_refuted.

Example C51_nonvacuous : exists rg, region_getitem (gridA 1) (IdxOne (SelNum 90)) = Ok rg
  /\ region_lon rg = [90].
Proof. exact single_example. Qed.

(** C85: the 9x36 text map: row k is the k-th 20-degree band from the north,
    column l the l-th 10-degree band eastward from 0. *)
Theorem C85_repr_map : forall rg r, grid_region_repr rg = Ok r ->
  shaped 9 36 (rr_map r) /\
  forall k l, (k < 9)%nat -> (l < 36)%nat ->
  (nth l (nth k (rr_map r) []) false = true <->
   (exists y, In y (region_lat rg) /\ 90 - 20 * INR (S k) <= y
       /\ (y < 90 - 20 * INR k \/ (k = 0%nat /\ y = 90)))
   /\ (exists x, In x (region_lon rg) /\ 10 * INR l <= x
       /\ (x < 10 * INR (S l) \/ (l = 35%nat /\ x = 360)))).
Proof. exact region_repr_map. Qed.
Print Assumptions C85_repr_map.

Example C85_nonvacuous : exists r, grid_region_repr regionP = Ok r.
Proof. apply repr_nonempty; easy. Qed.

(** C86 *)
Theorem C86_mean_of_extracted_partial : forall res rs om nt g arg rg m m' ax,
  mk_grid res rs om nt = Ok g -> region_getitem g arg = Ok rg ->
  shaped (g_nlat g) (g_nlon g) m -> extract rg [A2 m] = Ok (ExOne (A2 m')) ->
  ~ shaped (g_nlat g) (g_nlon g) m' ->
  grid_mean g (A2 m') ax (Some rg) = grid_mean g (A2 m) ax (Some rg).
Proof. exact mean_of_extracted. Qed.
Print Assumptions C86_mean_of_extracted_partial.

Theorem C86_mean_of_extracted_refuted :
  exists g arg rg m m' v v', mk_grid 90 1 0 None = Ok g /\ region_getitem g arg = Ok rg
    /\ shaped (g_nlat g) (g_nlon g) m
    /\ extract rg [A2 m] = Ok (ExOne (A2 m'))
    /\ grid_mean g (A2 m) (AxStr "meridional") (Some rg) = Ok (MProfile v)
    /\ grid_mean g (A2 m') (AxStr "meridional") (Some rg) = Ok (MProfile v')
    /\ v <> v'.
Proof. exact mean_of_extracted_witness. Qed.
Print Assumptions C86_mean_of_extracted_refuted.

Example C86_nonvacuous : exists m', extract regionP [A2 (mat_of 3 4 (fun i j => INR (i + j)))]
    = Ok (ExOne (A2 m')) /\ ~ shaped 3 4 m'.
Proof. eexists. split; [reflexivity|]. intros [H _]. simpl in H. discriminate. Qed.
