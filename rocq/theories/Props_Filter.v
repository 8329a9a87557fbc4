(** Filters (C62-C65). *)
From Coq Require Export String.
From Verif Require Import Base Model_Grid Model_Format Model_Filter Spec_Filter Proofs_Base Proofs_Grid Proofs_Filter Props_Format Props_Init.
From Verif Require Import Model_Region.
From Coq Require Import List Lia Lra.
Open Scope R_scope.

(** ** C62 *)
Lemma tab_weight_facts w h : let win := tab (2 * h + 1) (weight_of w h) in
  all_nonneg win /\ unit_sum win /\ rev win = win.
Proof.
  cbv zeta. split; [|split].
  - apply Forall_forall. intros x Hx. apply tab_in in Hx. destruct Hx as [i [_ ->]]. apply weight_nonneg.
  - apply weight_sum.
  - apply (list_eq_nth 0); [apply rev_length|]. intros i Hi. rewrite rev_length, tab_length in Hi.
    rewrite rev_nth by now rewrite tab_length. rewrite tab_length, !tab_nth by lia.
    rewrite <- (weight_symmetric w h i) by exact Hi. f_equal. lia.
Qed.
Theorem C62_window : forall g w width win, get_filter_window g w width = Ok win ->
  (exists h, length win = 2 * h + 1)%nat /\ Rabs (INR (length win) - width / g_dlon g) <= 3 / 2
  /\ all_nonneg win /\ unit_sum win /\ rev win = win.
Proof.
  intros g w width win H. destruct (points_cases (width / g_dlon g)) as [N|[h P]].
  - rewrite filter_window_neg in H by exact N. discriminate.
  - rewrite (filter_window_form g w width h P) in H. apply Ok_inj in H. subst win. rewrite tab_length.
    split; [eauto|]. split; [|apply tab_weight_facts].
    pose proof (points_close (width / g_dlon g)) as C. rewrite P, <- INR_IZR_INZ in C. exact C.
Qed.
Print Assumptions C62_window.
(** The weights themselves *)
Theorem C62_weights : forall g w width win h i, get_filter_window g w width = Ok win ->
  length win = (2 * h + 1)%nat -> (i < length win)%nat ->
  nth i win 0 = match w with Boxcar => boxcar_weight h i | Triang => triang_weight h i | Hann => hann_weight h i end.
Proof.
  intros g w width win h i H L Hi. destruct (points_cases (width / g_dlon g)) as [N|[h' P]].
  - rewrite filter_window_neg in H by exact N. discriminate.
  - rewrite (filter_window_form g w width h' P) in H. apply Ok_inj in H. subst win. rewrite tab_length in L, Hi.
    assert (h' = h) as -> by lia. rewrite tab_nth by lia. now destruct w.
Qed.
Print Assumptions C62_weights.
Lemma round_even_sign x : (0 <= round_even x)%Z <-> - (1 / 2) <= x.
Proof.
  pose proof (round_even_close x) as H.
  assert (B : - (1 / 2) <= IZR (round_even x) - x <= 1 / 2) by (unfold Rabs in H; destruct (Rcase_abs _) in H; lra).
  split; intros L.
  - apply IZR_le in L. lra.
  - destruct (Rle_lt_or_eq_dec _ _ L) as [L'| <-].
    + assert (-1 < round_even x)%Z by (apply lt_IZR; lra). lia.
    + unfold round_even. rewrite (Int_part_unique _ (-1)) by lra.
      destruct (Rltb (- (1 / 2) - -1) (1 / 2)) eqn:A; [apply Rltb_true in A; lra|].
      destruct (Rltb (1 / 2) (- (1 / 2) - -1)) eqn:C; [apply Rltb_true in C; lra|]. cbn. lia.
Qed.
Lemma points_sign x : (0 <= points x)%Z <-> (0 <= round_even x)%Z.
Proof.
  unfold points. destruct (Z.eqb_spec (round_even x mod 2) 1) as [E|E]; [reflexivity|].
  split; [|lia]. intros H. destruct (Z.eq_dec (round_even x) (-1)) as [Q|Q]; [rewrite Q in E; now contradiction E|lia].
Qed.
Theorem C62_returns : forall g w width,
  (- (1 / 2) <= width / g_dlon g -> exists win, get_filter_window g w width = Ok win)
  /\ (width / g_dlon g < - (1 / 2) -> get_filter_window g w width = Err ValueError).
Proof.
  intros g w width. split; intros H.
  - apply round_even_sign, points_sign in H. destruct (points_cases (width / g_dlon g)) as [N|[h P]]; [lia|].
    eexists. apply (filter_window_form g w width h P).
  - apply filter_window_neg. apply Z.lt_nge. rewrite points_sign, round_even_sign. lra.
Qed.
Print Assumptions C62_returns.
Example C62_nonvacuous : get_filter_window (gridA 1) Triang 230 = Ok [1 / 4; 2 / 4; 1 / 4].
Proof.
  assert (R : round_even (230 / g_dlon (gridA 1)) = 3%Z).
  { cbn [g_dlon gridA g_res]. unfold round_even. rewrite (Int_part_unique _ 2) by lra.
    destruct (Rltb (230 / 90 - 2) (1 / 2)) eqn:A; [apply Rltb_true in A; lra|].
    destruct (Rltb (1 / 2) (230 / 90 - 2)) eqn:C; [reflexivity|]. apply Rltb_false in C. lra. }
  rewrite (filter_window_form (gridA 1) Triang 230 1).
  - unfold tab. cbn. unfold triang_weight. cbn. repeat f_equal; field.
  - unfold points. rewrite R. reflexivity.
Qed.

(** ** C63 *)
Theorem C63_by_name : forall g field w width win, get_filter_window g w width = Ok win ->
  filter_zonal g field (ByName w width) = filter_zonal g field (ByArray win).
Proof. intros g field w width win H. unfold filter_zonal, window_of. now rewrite H. Qed.
Print Assumptions C63_by_name.
(** 2D fields are filtered row by row, so that the statements for 1D apply to
    every row. *)
Theorem C63_rows : forall g f a nr, shaped nr (g_nlon g) f -> (0 < nr)%nat -> forall w, window_of g a = Ok w ->
  exists out, filter_zonal g (A2 f) a = Ok (A2 out) /\ shaped nr (g_nlon g) out
  /\ forall i, (i < nr)%nat -> filter_zonal g (A1 (nth i f [])) a = Ok (A1 (nth i out [])).
Proof.
  intros g f a nr S N w W. unfold filter_zonal. rewrite W. cbn [bind]. unfold passert.
  rewrite (shaped_ncols nr (g_nlon g) f S N), Nat.eqb_refl. eexists. split; [reflexivity|]. split.
  - destruct S as [S1 S2]. split; [now rewrite map_length|]. apply Forall_map. eapply Forall_impl; [|exact S2]. intros r Hr. now rewrite conv_length.
  - intros i Hi. rewrite (shaped_row nr (g_nlon g)) by auto. rewrite Nat.eqb_refl.
    now rewrite (nth_map_lt _ _ _ nil nil) by (rewrite (proj1 S); exact Hi).
Qed.
Print Assumptions C63_rows.
Lemma zonal_1d g f w : length f = g_nlon g -> filter_zonal g (A1 f) (ByArray w) = Ok (A1 (convolve wrap_index f w)).
Proof. intros L. unfold filter_zonal, window_of. cbn [bind]. unfold passert. now rewrite (proj2 (Nat.eqb_eq _ _) L). Qed.
Theorem C63_constants : forall g c w, unit_sum w ->
  filter_zonal g (A1 (repeat c (g_nlon g))) (ByArray w) = Ok (A1 (repeat c (g_nlon g))).
Proof. intros g c w U. rewrite zonal_1d by apply repeat_length. now rewrite conv_const by (auto using wrap_range). Qed.
Print Assumptions C63_constants.
Theorem C63_mean : forall g f w, length f = g_nlon g -> unit_sum w ->
  exists out, filter_zonal g (A1 f) (ByArray w) = Ok (A1 out) /\ length out = length f /\ vmean out = vmean f.
Proof.
  intros g f w L U. rewrite zonal_1d by exact L. eexists. split; [reflexivity|]. split; [apply conv_length|].
  unfold vmean. now rewrite conv_length, wrap_mean.
Qed.
Print Assumptions C63_mean.
Theorem C63_rotation : forall g f w s, length f = g_nlon g ->
  exists out, filter_zonal g (A1 f) (ByArray w) = Ok (A1 out)
  /\ filter_zonal g (A1 (rotate 0 s f)) (ByArray w) = Ok (A1 (rotate 0 s out)).
Proof.
  intros g f w s L. eexists. split; [apply zonal_1d, L|]. rewrite zonal_1d by now rewrite rotate_length. now rewrite wrap_rotate.
Qed.
Print Assumptions C63_rotation.
Theorem C63_linear : forall g f f' w a b, length f = g_nlon g -> length f' = g_nlon g ->
  exists out out', filter_zonal g (A1 f) (ByArray w) = Ok (A1 out) /\ filter_zonal g (A1 f') (ByArray w) = Ok (A1 out')
  /\ filter_zonal g (A1 (vadd (vscale a f) (vscale b f'))) (ByArray w) = Ok (A1 (vadd (vscale a out) (vscale b out'))).
Proof.
  intros g f f' w a b L L'. do 2 eexists. split; [apply zonal_1d, L|]. split; [apply zonal_1d, L'|].
  assert (E : forall x y, vadd (vscale a x) (vscale b y) = map2 (fun x y => a * x + b * y) x y).
  { intros x y. unfold vadd, vscale. now rewrite map2_map_l, map2_map_r. }
  rewrite !E. rewrite zonal_1d by (rewrite map2_length; lia). rewrite conv_linear; [reflexivity|apply wrap_range|lia].
Qed.
Print Assumptions C63_linear.
Theorem C63_range : forall g f w lo hi, length f = g_nlon g -> unit_sum w -> all_nonneg w -> within lo hi f ->
  exists out, filter_zonal g (A1 f) (ByArray w) = Ok (A1 out) /\ within lo hi out.
Proof.
  intros g f w lo hi L U N W. eexists. split; [apply zonal_1d, L|]. apply conv_range; auto using wrap_range.
Qed.
Print Assumptions C63_range.
Theorem C63_rejected : forall g w, 
  (forall f, length f <> g_nlon g -> filter_zonal g (A1 f) (ByArray w) = Err AssertionError)
  /\ (forall f, ncols f <> g_nlon g -> filter_zonal g (A2 f) (ByArray w) = Err AssertionError)
  /\ filter_zonal g AOther (ByArray w) = Err ValueError.
Proof.
  intros g w. unfold filter_zonal, window_of, passert. cbn [bind]. split; [|split]; [| |reflexivity];
    intros f H; apply Nat.eqb_neq in H; now rewrite H.
Qed.
Print Assumptions C63_rejected.
Example C63_nonvacuous : unit_sum [1 / 4; 1 / 2; 1 / 4] /\ all_nonneg [1 / 4; 1 / 2; 1 / 4]
  /\ length [3; 1; 4; 2] = g_nlon (gridA 1) /\ within 1 4 [3; 1; 4; 2]
  /\ filter_zonal (gridA 1) (A1 [3; 1; 4; 2]) (ByArray [1 / 4; 1 / 2; 1 / 4]) = Ok (A1 [9 / 4; 9 / 4; 11 / 4; 11 / 4]).
Proof.
  split; [unfold unit_sum; cbn; lra|]. split; [repeat constructor; lra|]. split; [reflexivity|]. split; [repeat constructor; lra|].
  rewrite zonal_1d by reflexivity. unfold convolve, tab, znth, wrap_index. cbn - [Pos.to_nat]. change (Pos.to_nat 1) with 1%nat; change (Pos.to_nat 2) with 2%nat; change (Pos.to_nat 3) with 3%nat. cbn iota. apply f_equal, f_equal. repeat (apply (f_equal2 (@cons R)); [lra|]). reflexivity.
Qed.
(** an asymmetric window: the first weight acts on the value to the east *)
Example C63_orientation : filter_zonal (gridA 1) (A1 [3; 1; 4; 2]) (ByArray [1; 0; 0]) = Ok (A1 [1; 4; 2; 3]).
Proof. rewrite zonal_1d by reflexivity. unfold convolve, tab, znth, wrap_index. cbn - [Pos.to_nat]. change (Pos.to_nat 1) with 1%nat; change (Pos.to_nat 2) with 2%nat; change (Pos.to_nat 3) with 3%nat. cbn iota. apply f_equal, f_equal. repeat (apply (f_equal2 (@cons R)); [lra|]). reflexivity. Qed.

(** ** C64 *)
Lemma merid_1d g f w : length f = g_nlat g -> filter_meridional g (A1 f) (ByArray w) = Ok (A1 (convolve reflect_index f w)).
Proof. intros L. unfold filter_meridional, window_of. cbn [bind]. unfold passert. now rewrite (proj2 (Nat.eqb_eq _ _) L). Qed.
Theorem C64_by_name : forall g field w width win, get_filter_window g w width = Ok win ->
  filter_meridional g field (ByName w width) = filter_meridional g field (ByArray win).
Proof. intros g field w width win H. unfold filter_meridional, window_of. now rewrite H. Qed.
Print Assumptions C64_by_name.
Theorem C64_constants : forall g c w, unit_sum w ->
  filter_meridional g (A1 (repeat c (g_nlat g))) (ByArray w) = Ok (A1 (repeat c (g_nlat g))).
Proof. intros g c w U. rewrite merid_1d by apply repeat_length. now rewrite conv_const by (auto using reflect_range). Qed.
Print Assumptions C64_constants.
Theorem C64_range : forall g f w lo hi, length f = g_nlat g -> unit_sum w -> all_nonneg w -> within lo hi f ->
  exists out, filter_meridional g (A1 f) (ByArray w) = Ok (A1 out) /\ length out = length f /\ within lo hi out.
Proof.
  intros g f w lo hi L U N W. eexists. split; [apply merid_1d, L|]. split; [apply conv_length|]. apply conv_range; auto using reflect_range.
Qed.
Print Assumptions C64_range.
(** 2D fields are filtered column by column *)
Theorem C64_columns : forall g f w nc, shaped (g_nlat g) nc f -> (0 < g_nlat g)%nat ->
  exists out, filter_meridional g (A2 f) (ByArray w) = Ok (A2 out) /\ shaped (g_nlat g) nc out
  /\ forall j, (j < nc)%nat -> filter_meridional g (A1 (mcol f j)) (ByArray w) = Ok (A1 (mcol out j)).
Proof.
  intros g f w nc S N. unfold filter_meridional at 1, window_of. cbn [bind]. unfold passert.
  rewrite (proj2 (Nat.eqb_eq _ _) (proj1 S)). rewrite (shaped_ncols _ nc f S N). eexists. split; [reflexivity|]. split.
  - rewrite <- (proj1 S) at 1. apply convolve_columns_shaped.
  - intros j Hj. rewrite merid_1d by (rewrite mcol_length; apply S). now rewrite convolve_columns_col.
Qed.
Print Assumptions C64_columns.
Theorem C64_reflection : forall g f w h, length f = g_nlat g -> length w = (2 * h + 1)%nat -> rev w = w ->
  exists out, filter_meridional g (A1 f) (ByArray w) = Ok (A1 out)
  /\ filter_meridional g (A1 (rev f)) (ByArray w) = Ok (A1 (rev out)).
Proof.
  intros g f w h L Lw S. eexists. split; [apply merid_1d, L|]. rewrite merid_1d by now rewrite rev_length. now rewrite (reflect_rev f w h).
Qed.
Print Assumptions C64_reflection.
Theorem C64_linear : forall g f f' w a b, length f = g_nlat g -> length f' = g_nlat g ->
  exists out out', filter_meridional g (A1 f) (ByArray w) = Ok (A1 out) /\ filter_meridional g (A1 f') (ByArray w) = Ok (A1 out')
  /\ filter_meridional g (A1 (vadd (vscale a f) (vscale b f'))) (ByArray w) = Ok (A1 (vadd (vscale a out) (vscale b out'))).
Proof.
  intros g f f' w a b L L'. do 2 eexists. split; [apply merid_1d, L|]. split; [apply merid_1d, L'|].
  assert (E : forall x y, vadd (vscale a x) (vscale b y) = map2 (fun x y => a * x + b * y) x y).
  { intros x y. unfold vadd, vscale. now rewrite map2_map_l, map2_map_r. }
  rewrite !E. rewrite merid_1d by (rewrite map2_length; lia). rewrite conv_linear; [reflexivity|apply reflect_range|lia].
Qed.
Print Assumptions C64_linear.
(** Values beyond the poles are those of the nearest latitudes, mirrored *)
Example C64_nonvacuous : unit_sum [1 / 4; 1 / 2; 1 / 4] /\ all_nonneg [1 / 4; 1 / 2; 1 / 4] /\ rev [1 / 4; 1 / 2; 1 / 4] = [1 / 4; 1 / 2; 1 / 4]
  /\ length [3; 1; 4] = g_nlat (gridA 1) /\ within 1 4 [3; 1; 4]
  /\ filter_meridional (gridA 1) (A1 [3; 1; 4]) (ByArray [1 / 4; 1 / 2; 1 / 4]) = Ok (A1 [10 / 4; 9 / 4; 13 / 4]).
Proof.
  split; [unfold unit_sum; cbn; lra|]. split; [repeat constructor; lra|]. split; [reflexivity|]. split; [reflexivity|]. split; [repeat constructor; lra|].
  rewrite merid_1d by reflexivity. unfold convolve, tab, znth, reflect_index. cbn - [Pos.to_nat]. change (Pos.to_nat 1) with 1%nat; change (Pos.to_nat 2) with 2%nat; change (Pos.to_nat 3) with 3%nat. cbn iota. apply f_equal, f_equal. repeat (apply (f_equal2 (@cons R)); [lra|]). reflexivity.
Qed.

(** ** C65 *)
Theorem C65_value : forall nr nc f k, shaped nr nc f -> shaped nr nc k -> (0 < nr)%nat -> (0 < nc)%nat ->
  exists out, filter_by_wavenumber f (A2 k) = Ok out /\ shaped nr nc out
  /\ forall i j, (i < nr)%nat -> (j < nc)%nat -> mget out i j = hann_mean (wave_points nc (mget k i j)) (nth i f []) j.
Proof.
  intros nr nc f k Sf Sk Nr Nc. eexists. split; [apply (by_wavenumber_value nr nc); assumption|]. split; [apply shaped_mat_of|].
  intros i j Hi Hj. now rewrite mget_mat_of.
Qed.
Print Assumptions C65_value.
Theorem C65_range : forall nr nc f k lo hi i j out, shaped nr nc f -> shaped nr nc k -> (i < nr)%nat -> (j < nc)%nat ->
  filter_by_wavenumber f (A2 k) = Ok out -> within lo hi (nth i f []) -> lo <= mget out i j <= hi.
Proof.
  intros nr nc f k lo hi i j out Sf Sk Hi Hj H W. rewrite (by_wavenumber_value nr nc) in H by (auto; lia). apply Ok_inj in H. subst out.
  rewrite mget_mat_of by assumption. apply hann_mean_range; [|intros E|exact W].
  - destruct (wave_points_ge nc (mget k i j) ltac:(lia)). lia.
  - assert (L : length (nth i f nil) = nc) by (apply (shaped_row nr nc); auto). rewrite E in L. cbn in L. lia.
Qed.
Print Assumptions C65_range.
Theorem C65_constants : forall nr nc c k, shaped nr nc k -> (0 < nr)%nat -> (0 < nc)%nat ->
  filter_by_wavenumber (mat_of nr nc (fun i _ => c i)) (A2 k) = Ok (mat_of nr nc (fun i _ => c i)).
Proof.
  intros nr nc c k Sk Nr Nc. rewrite (by_wavenumber_value nr nc) by (auto using shaped_mat_of). f_equal. apply mat_of_ext. intros i j Hi Hj.
  assert (E : nth i (mat_of nr nc (fun i _ => c i)) nil = tab nc (fun _ => c i)) by (unfold mat_of; now rewrite tab_nth).
  rewrite E. assert (B : c i <= hann_mean (wave_points nc (mget k i j)) (tab nc (fun _ => c i)) j <= c i); [|lra].
  apply hann_mean_range.
  - destruct (wave_points_ge nc (mget k i j) ltac:(lia)). lia.
  - intros Q. apply (f_equal (@length R)) in Q. rewrite tab_length in Q. cbn in Q. lia.
  - apply Forall_forall. intros x Hx. apply tab_in in Hx. destruct Hx as [_ [_ ->]]. lra.
Qed.
Print Assumptions C65_constants.
Theorem C65_profile : forall nr nc f k, shaped nr nc f -> (0 < nr)%nat -> length k = nr ->
  filter_by_wavenumber f (A1 k) = filter_by_wavenumber f (A2 (mat_of nr nc (fun i _ => nth i k 0))).
Proof.
  intros nr nc f k Sf Nr L. unfold filter_by_wavenumber. rewrite (shaped_ncols nr nc f Sf Nr), (proj1 Sf). unfold passert.
  rewrite L, Nat.eqb_refl. rewrite (proj2 (shapedb_spec nr nc _) (shaped_mat_of nr nc _)). now rewrite reshape_repeat by exact L.
Qed.
Print Assumptions C65_profile.
Theorem C65_profile_size : forall f k, length k <> length f -> filter_by_wavenumber f (A1 k) = Err AssertionError.
Proof. intros f k H. unfold filter_by_wavenumber, passert. apply Nat.eqb_neq in H. now rewrite H. Qed.
Print Assumptions C65_profile_size.
Example C65_nonvacuous : shaped 2 4 [[3; 1; 4; 2]; [5; 9; 2; 6]] /\ shaped 2 4 [[3; 1; 4; 2]; [5; 9; 2; 6]] /\ wave_points 4 1 = 4%nat /\ wave_points 4 3 = 2%nat
  /\ within 1 4 (nth 0 [[3; 1; 4; 2]; [5; 9; 2; 6]] []).
Proof.
  split; [split; [reflexivity|repeat constructor]|]. split; [split; [reflexivity|repeat constructor]|].
  assert (A : forall k z, IZR z <= 4 / k < IZR z + 1 -> Int_part (4 / k) = z) by (intros; now apply Int_part_unique).
  split; [|split].
  - unfold wave_points. rewrite Rmax_left, Rmin_left by (cbn; lra). replace (INR 4) with 4 by (cbn; lra). rewrite (A 1 4%Z) by lra. reflexivity.
  - unfold wave_points. rewrite (Rmax_left 3 1) by lra. rewrite Rmin_right by (cbn; lra). replace (INR 4) with 4 by (cbn; lra). rewrite (A (4 / 2) 2%Z) by lra. reflexivity.
  - cbn. repeat constructor; lra.
Qed.
