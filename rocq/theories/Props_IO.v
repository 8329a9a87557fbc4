(** Properties C56-C61: reading and writing xarray Datasets. *)
From Coq Require Export String.
From Verif Require Import Model_Float Spec_IO Spec_Instance Proofs_Base Proofs_Grid Proofs_Instance Proofs_StateList Proofs_State Proofs_Spectral Proofs_IO Proofs_From Proofs_As Proofs_Plain Proofs_Round.
From Verif Require Import Props_State.
From Coq Require Import List Lia Lra.
Import ListNotations.
Local Open Scope string_scope.
Local Open Scope list_scope.

(** ** C56: the grid of the states *)
(** The grid has as many points as the coordinates.  The coordinates agree with
    those of the grid up to the tolerance of the checks and up to the position
    of the first point; the latitudes only for an even number of longitudes. *)
Theorem C56_grid_partial : forall T ds names rs om nt tf r, valid_ds ds -> NoDup (map fst names) ->
  from_dataset T ds names rs om nt tf = Ok r ->
  exists lonn latn lon lat, picks ds names "lon" (Some lonn) /\ picks ds names "lat" (Some latn)
    /\ coordinate ds lonn lon /\ coordinate ds latn lat
    /\ forall s, In s r ->
         g_nlon (s_grid s) = length lon /\ g_nlat (s_grid s) = length lat
         /\ g_rsphere (s_grid s) = rs /\ g_omega (s_grid s) = om
         /\ ((length lon <= 100000)%nat ->
              (forall k, (k < length lon)%nat ->
                 Rabs ((nth k lon 0 - nth 0 lon 0) - (nth k (g_lon (s_grid s)) 0 - nth 0 (g_lon (s_grid s)) 0)) <= 2 / 100)
              /\ (Nat.even (length lon) = true -> forall k, (k < length lat)%nat ->
                 Rabs ((nth k lat 0 - nth 0 lat 0) - (nth k (g_lat (s_grid s)) 0 - nth 0 (g_lat (s_grid s)) 0)) <= 2 / 100)).
Proof.
  intros T ds names rs om nt tf r V N H.
  destruct (from_inv T ds names rs om nt tf V N r H) as (lonn & latn & lon & lat & dlon & g & src & extra & A & S).
  pose proof A as (P1 & P2 & C1 & C2 & R1 & R2 & G & O & SD & DD).
  exists lonn, latn, lon, lat. split; [exact P1|]. split; [exact P2|]. split; [exact C1|]. split; [exact C2|].
  intros s I. destruct (states_In _ _ _ _ _ _ _ _ _ _ _ S I) as (idx & t & _ & _ & _ & Eg & _ & S1 & S2 & _).
  assert (D1 : is_dimension ds latn) by (apply (origin_dim ds names src latn O); rewrite DD; apply in_or_app; cbn; auto).
  assert (D2 : is_dimension ds lonn) by (apply (origin_dim ds names src lonn O); rewrite DD; apply in_or_app; cbn; auto).
  rewrite Eg. rewrite (coord_len ds lonn lon V D2 C1), (coord_len ds latn lat V D1 C2).
  destruct (mk_grid_facts _ _ _ _ _ G) as [_ F1 F2 _ _ L4 L3 _ _ _ _ _].
  split; [now symmetry|]. split; [now symmetry|]. split; [exact F1|]. split; [exact F2|]. intros SM.
  assert (L1 : length lon = g_nlon g) by (now rewrite (coord_len ds lonn lon V D2 C1)).
  assert (L2 : length lat = g_nlat g) by (now rewrite (coord_len ds latn lat V D1 C2)).
  rewrite S1, S2 in *. split.
  - intros k K. rewrite !lon_nth by lia. cbn [INR]. replace (INR k * (360 / INR (g_nlon g)) - 0 * (360 / INR (g_nlon g))) with (INR k * (360 / INR (g_nlon g))) by ring.
    rewrite <- L1. apply (lon_close lon dlon); auto; lia.
  - intros EV k K. rewrite !lat_nth by lia. cbn [INR].
    assert (Q : -180 / INR (g_nlat g - 1) = - (360 / INR (length lon))).
    { destruct R2 as (Q & _). rewrite L1, L2 in Q. apply Nat.even_spec in EV as [m M].
      rewrite M, Nat.mul_comm, Nat.div_mul in Q by lia. rewrite L1, M, Q, mult_INR. cbn [INR].
      assert (0 < INR m) by (apply lt_0_INR; lia). field. lra. }
    rewrite Q.
    match goal with |- Rabs ?x <= _ => replace x with (nth k lat 0 - nth 0 lat 0 + INR k * (360 / INR (length lon))) by ring end.
    apply (lat_close lon lat dlon); auto; lia.
Qed.
Print Assumptions C56_grid_partial.

(** Longitudes from 180W are accepted, the states are on a grid that starts at
    Greenwich: all fields are moved by half the globe.  The same holds for
    latitudes that do not start at the pole. *)
Definition lonW : vec := [-180; -90; 0; 90].
Definition lat4 : vec := [90; 0; -90].
Lemma near_refl x : near x x.
Proof. unfold near. rewrite Rminus_diag_eq, Rabs_R0 by easy. pose proof (Rabs_pos x). lra. Qed.
Lemma near_eq x y : x = y -> near x y.
Proof. intros ->. apply near_refl. Qed.
Lemma lonW_regular : regular_lon lonW 90.
Proof.
  unfold regular_lon, spaced, lonW. cbn [length nth Nat.sub]. repeat split; try lia; try lra.
  - intros k K. apply near_eq. destruct k as [|[|[|k]]]; cbn; try lra; lia.
  - apply near_eq. lra.
Qed.
Lemma lat4_regular lat : length lat = 3%nat -> nth 1 lat 0 - nth 0 lat 0 = -90 -> nth 2 lat 0 - nth 1 lat 0 = -90 -> regular_lat lat 4 90.
Proof.
  intros L A B. unfold regular_lat, spaced. rewrite L. split; [reflexivity|]. exists (-90). repeat split; try lia; try lra.
  - intros k K. apply near_eq. destruct k as [|[|k]]; try lia; lra.
  - apply near_eq. lra.
Qed.
Theorem C56_offset_refuted : forall T tf,
  (exists ds lon s, valid_ds ds /\ coordinate ds "longitude" lon /\ picks ds [] "lon" (Some "longitude")
     /\ from_dataset T ds [] 1 1 (Some 1%Z) tf = Ok [s] /\ nth 0 lon 0 = -180 /\ nth 0 (g_lon (s_grid s)) 0 = 0)
  /\ (exists ds lat s, valid_ds ds /\ coordinate ds "latitude" lat /\ picks ds [] "lat" (Some "latitude")
     /\ from_dataset T ds [] 1 1 (Some 1%Z) tf = Ok [s] /\ nth 0 lat 0 = 60 /\ nth 2 lat 0 = -120 /\ nth 0 (g_lat (s_grid s)) 0 = 90).
Proof.
  intros T tf.
  assert (G : mk_grid 90 1 1 (Some 1%Z) = Ok (d1_grid 1 1)) by (apply d1_grid_ok; lra).
  assert (R : forall lat, length lat = 3%nat -> nth 1 lat 0 - nth 0 lat 0 = -90 -> nth 2 lat 0 - nth 1 lat 0 = -90 ->
    exists s, from_dataset T (plain lonW lat (fun _ _ => 0)) [] 1 1 (Some 1%Z) tf = Ok [s] /\ s_grid s = d1_grid 1 1).
  { intros lat L A B. destruct (plain_reads lonW lat (fun _ _ => 0) T 1 1 (Some 1%Z) tf 90 (d1_grid 1 1)) as (s & H & E & _); auto.
    - exact lonW_regular.
    - now apply lat4_regular.
    - lia.
    - exists s. auto. }
  split.
  - destruct (R lat4 eq_refl) as (s & H & E); [cbn; lra..|]. exists (plain lonW lat4 (fun _ _ => 0)), lonW, s.
    split; [apply plain_valid|]. split; [now apply plain_lon|]. split; [apply plain_picks_lon|]. split; [exact H|].
    split; [reflexivity|]. rewrite E. rewrite lon_nth by (cbn; lia). cbn [INR]. lra.
  - destruct (R [60; -30; -120] eq_refl) as (s & H & E); [cbn; lra..|]. exists (plain lonW [60; -30; -120] (fun _ _ => 0)), [60; -30; -120], s.
    split; [apply plain_valid|]. split; [now apply plain_lat|]. split; [apply plain_picks_lat|]. split; [exact H|].
    split; [reflexivity|]. split; [reflexivity|]. rewrite E. rewrite lat_nth by (cbn; lia). cbn [INR]. lra.
Qed.
Print Assumptions C56_offset_refuted.

(** With an odd number of longitudes the latitudes cannot reach the poles in
    steps of the longitudes; such a dataset is accepted and its fields are
    placed on latitudes from pole to pole. *)
Definition lon5 : vec := [0; 72; 144; 216; 288].
Definition lat5 : vec := [72; 0; -72].
Definition grid72 : grid := mkGrid 72 1 1 5 3 2.
Lemma grid72_ok : mk_grid 72 1 1 None = Ok grid72.
Proof. apply (mk_grid_Ok 72 1 1 5 2); try lra; lia. Qed.
Lemma lon5_regular : regular_lon lon5 72.
Proof.
  unfold regular_lon, spaced, lon5. cbn [length nth Nat.sub]. repeat split; try lia; try lra.
  - intros k K. apply near_eq. destruct k as [|[|[|[|k]]]]; cbn; try lra; lia.
  - apply near_eq. lra.
Qed.
Lemma lat5_regular : regular_lat lat5 5 72.
Proof.
  unfold regular_lat, spaced, lat5. cbn [length nth Nat.sub]. split; [reflexivity|]. exists (-72). repeat split; try lia; try lra.
  - intros k K. apply near_eq. destruct k as [|[|k]]; cbn; try lra; lia.
  - apply near_eq. lra.
Qed.
Theorem C56_poles_refuted : forall T tf, exists ds lat s,
  valid_ds ds /\ coordinate ds "latitude" lat /\ picks ds [] "lat" (Some "latitude")
  /\ from_dataset T ds [] 1 1 None tf = Ok [s]
  /\ nth 0 lat 0 = 72 /\ nth 2 lat 0 = -72
  /\ nth 0 (g_lat (s_grid s)) 0 = 90 /\ nth 2 (g_lat (s_grid s)) 0 = -90.
Proof.
  intros T tf.
  destruct (plain_reads lon5 lat5 (fun _ _ => 0) T 1 1 None tf 72 grid72 lon5_regular lat5_regular grid72_ok eq_refl eq_refl) as (s & H & E & _); [cbn; lia|].
  exists (plain lon5 lat5 (fun _ _ => 0)), lat5, s. split; [apply plain_valid|]. split; [now apply plain_lat|].
  split; [apply plain_picks_lat|]. split; [exact H|]. split; [reflexivity|]. split; [reflexivity|]. rewrite E.
  rewrite !lat_nth by (cbn; lia). cbn. lra.
Qed.
Print Assumptions C56_poles_refuted.

(** In binary64 the number of longitudes computed from their spacing is not the
    number of longitudes: a dataset with 338 longitudes at the multiples of
    360/338 gets a grid with 337, and the fields do not fit. *)
Theorem C56_float_refuted :
  nlon_b64 (resolution_360 338) = Some 337%Z /\ nlat_b64 (resolution_360 338) = Some 169%Z
  /\ nlon_b64 (b64_div (b64_of_Z 1065) (b64_of_Z 1000)) = Some 338%Z.
Proof. vm_compute. auto. Qed.
Print Assumptions C56_float_refuted.

Example C56_nonvacuous : forall T tf, exists s,
  valid_ds (plain lonW lat4 (fun i j => INR (i * 4 + j))) /\ NoDup (map fst (@nil (string * option string)))
  /\ from_dataset T (plain lonW lat4 (fun i j => INR (i * 4 + j))) [] 1 1 (Some 1%Z) tf = Ok [s].
Proof.
  intros T tf. destruct (plain_reads lonW lat4 (fun i j => INR (i * 4 + j)) T 1 1 (Some 1%Z) tf 90 (d1_grid 1 1)) as (s & H & _); auto.
  - exact lonW_regular.
  - apply lat4_regular; cbn; try lra. reflexivity.
  - apply d1_grid_ok. lra.
  - cbn. lia.
  - exists s. split; [apply plain_valid|]. split; [constructor|exact H].
Qed.

(** ** C57: what is rejected *)
Theorem C57_missing_coordinates : forall T ds names rs om nt tf, valid_ds ds -> NoDup (map fst names) ->
  (picks ds names "lon" None -> from_dataset T ds names rs om nt tf = Err ValueError)
  /\ (forall r, picks ds names "lat" None -> from_dataset T ds names rs om nt tf <> Ok r).
Proof.
  intros T ds names rs om nt tf V N. split.
  - intros P. apply (vm ds names N) in P. unfold from_dataset. cbv zeta. rewrite P. reflexivity.
  - intros r P H. destruct (from_inv T ds names rs om nt tf V N r H) as (lonn & latn & lon & lat & dlon & g & src & extra & A & _).
    destruct A as (_ & P2 & _). pose proof (picks_fun _ _ _ _ _ N P P2). easy.
Qed.
Print Assumptions C57_missing_coordinates.

(** the coordinates of an accepted dataset are regular; every other longitude
    or latitude coordinate is an AssertionError *)
Theorem C57_irregular_longitudes : forall T ds names rs om nt tf n lon, valid_ds ds -> NoDup (map fst names) ->
  picks ds names "lon" (Some n) -> coordinate ds n lon -> (forall d, ~ regular_lon lon d) ->
  from_dataset T ds names rs om nt tf = Err AssertionError.
Proof.
  intros T ds names rs om nt tf n lon V N P C NR. destruct (check_lon_coord ds n lon V C) as [E L].
  apply (vm ds names N) in P. unfold from_dataset. cbv zeta. rewrite P, E.
  destruct (lon_checks n lon) as [[[m x] d]|e] eqn:Q.
  - apply lon_checks_ok in Q as (_ & -> & R). destruct (NR _ R).
  - destruct (lon_checks_err _ _ _ L Q) as [-> _]. reflexivity.
Qed.
Print Assumptions C57_irregular_longitudes.
Theorem C57_irregular_latitudes : forall T ds names rs om nt tf lonn lon dlon n lat, valid_ds ds -> NoDup (map fst names) ->
  picks ds names "lon" (Some lonn) -> coordinate ds lonn lon -> regular_lon lon dlon ->
  picks ds names "lat" (Some n) -> coordinate ds n lat -> ~ regular_lat lat (length lon) dlon ->
  from_dataset T ds names rs om nt tf = Err AssertionError.
Proof.
  intros T ds names rs om nt tf lonn lon dlon n lat V N P1 C1 R1 P C NR.
  assert (E1 : check_lon (squeeze ds) (var_map (squeeze ds) names "lon") = Ok (lonn, lon, dlon)) by (apply (lon_stage ds names V N); auto).
  destruct (check_lat_coord ds n lat lon dlon V C) as [E L]. apply (vm ds names N) in P.
  unfold from_dataset. cbv zeta. rewrite E1. cbn [bind]. rewrite P, E.
  destruct (lat_checks n lat (length lon) dlon) as [[m x]|e] eqn:Q.
  - apply lat_checks_ok in Q as (_ & -> & R). destruct (NR R).
  - destruct (lat_checks_err _ _ _ _ _ L Q) as [-> _]. reflexivity.
Qed.
Print Assumptions C57_irregular_latitudes.
(** a variable that is not a one-dimensional coordinate *)
Theorem C57_not_a_coordinate : forall T ds names rs om nt tf r, valid_ds ds -> NoDup (map fst names) ->
  (exists ref n, (ref = "lon" \/ ref = "lat") /\ picks ds names ref (Some n) /\ forall x, ~ coordinate ds n x) ->
  from_dataset T ds names rs om nt tf <> Ok r.
Proof.
  intros T ds names rs om nt tf r V N (ref & n & [-> | ->] & P & NC) H;
  destruct (from_inv T ds names rs om nt tf V N r H) as (lonn & latn & lon & lat & dlon & g & src & extra & A & _);
  destruct A as (P1 & P2 & C1 & C2 & _).
  - pose proof (picks_fun _ _ _ _ _ N P P1) as E. assert (n = lonn) by congruence. subst. exact (NC _ C1).
  - pose proof (picks_fun _ _ _ _ _ N P P2) as E. assert (n = latn) by congruence. subst. exact (NC _ C2).
Qed.
Print Assumptions C57_not_a_coordinate.
(** How regular: longitudes go east, latitudes south; all gaps agree to
    1e-5 relative plus 1e-8, the longitudes close the circle. *)
Theorem C57_accepted_partial : forall T ds names rs om nt tf r, valid_ds ds -> NoDup (map fst names) ->
  from_dataset T ds names rs om nt tf = Ok r ->
  exists lonn latn lon lat dlon, picks ds names "lon" (Some lonn) /\ picks ds names "lat" (Some latn)
    /\ coordinate ds lonn lon /\ coordinate ds latn lat /\ regular_lon lon dlon /\ regular_lat lat (length lon) dlon
    /\ ((length lon <= 100000)%nat ->
          (forall k, (k < length lon)%nat -> Rabs (nth k lon 0 - nth 0 lon 0 - INR k * (360 / INR (length lon))) <= 2 / 100)
          /\ (forall k, (k < length lat)%nat -> Rabs (nth k lat 0 - nth 0 lat 0 + INR k * (360 / INR (length lon))) <= 2 / 100)).
Proof.
  intros T ds names rs om nt tf r V N H.
  destruct (from_inv T ds names rs om nt tf V N r H) as (lonn & latn & lon & lat & dlon & g & src & extra & A & _).
  destruct A as (P1 & P2 & C1 & C2 & R1 & R2 & _). exists lonn, latn, lon, lat, dlon.
  do 6 (split; [assumption|]). intros SM. split; intros k K; [now apply (lon_close lon dlon)|now apply (lat_close lon lat dlon)].
Qed.
Print Assumptions C57_accepted_partial.
(** Not rejected: latitudes of a band that misses the poles, latitudes beyond a pole *)
Theorem C57_extent_refuted : forall T tf,
  (exists ds s, valid_ds ds /\ coordinate ds "latitude" lat5 /\ from_dataset T ds [] 1 1 None tf = Ok [s])
  /\ (exists ds s, valid_ds ds /\ coordinate ds "latitude" [60; -30; -120] /\ from_dataset T ds [] 1 1 (Some 1%Z) tf = Ok [s]).
Proof.
  intros T tf. split.
  - destruct (plain_reads lon5 lat5 (fun _ _ => 0) T 1 1 None tf 72 grid72 lon5_regular lat5_regular grid72_ok eq_refl eq_refl) as (s & H & E & _); [cbn; lia|].
    exists (plain lon5 lat5 (fun _ _ => 0)), s. split; [apply plain_valid|]. split; [now apply plain_lat|exact H].
  - destruct (plain_reads lonW [60; -30; -120] (fun _ _ => 0) T 1 1 (Some 1%Z) tf 90 (d1_grid 1 1)) as (s & H & _); auto.
    + exact lonW_regular.
    + apply lat4_regular; cbn; try lra. reflexivity.
    + apply d1_grid_ok. lra.
    + cbn. lia.
    + exists (plain lonW [60; -30; -120] (fun _ _ => 0)), s. split; [apply plain_valid|]. split; [now apply plain_lat|exact H].
Qed.
Print Assumptions C57_extent_refuted.

(** the six kinds of wrong coordinates named in the claim are irregular *)
Example C57_unequal : forall d, ~ regular_lon [0; 90; 181; 270] d.
Proof.
  intros d ((_ & E & H) & _). cbn [nth] in E. specialize (H 1%nat ltac:(cbn; lia)). cbn [nth] in H. unfold near in H. subst d.
  unfold Rabs in H. repeat destruct (Rcase_abs _); lra.
Qed.
Example C57_westward : forall d, ~ regular_lon [270; 180; 90; 0] d.
Proof. intros d ((_ & E & H) & P & _). cbn [nth] in E. lra. Qed.
Example C57_regional : forall d, ~ regular_lon [0; 10; 20; 30] d.
Proof.
  intros d ((_ & E & H) & P & F). cbn [nth length Nat.sub] in E, F. unfold near in F. subst d.
  unfold Rabs in F. repeat destruct (Rcase_abs _); lra.
Qed.
Example C57_northward : ~ regular_lat [-90; 0; 90] 4 90.
Proof. intros (_ & e & (_ & E & _) & P & _). cbn [nth] in E. lra. Qed.
Example C57_mismatch : ~ regular_lat [90; 10; -70] 4 90.
Proof.
  intros (_ & e & (_ & E & _) & P & N). cbn [nth] in E. unfold near in N. subst e.
  unfold Rabs in N. repeat destruct (Rcase_abs _); lra.
Qed.
Example C57_nonvacuous : forall T tf,
  from_dataset T (plain [0; 90; 181; 270] lat4 (fun _ _ => 0)) [] 1 1 (Some 1%Z) tf = Err AssertionError
  /\ from_dataset T (plain lonW [90; 10; -70] (fun _ _ => 0)) [] 1 1 (Some 1%Z) tf = Err AssertionError.
Proof.
  intros T tf. split.
  - apply (C57_irregular_longitudes T _ [] 1 1 _ tf "longitude" [0; 90; 181; 270]); [apply plain_valid|constructor|apply plain_picks_lon|now apply plain_lon|exact C57_unequal].
  - apply (C57_irregular_latitudes T _ [] 1 1 _ tf "longitude" lonW 90 "latitude" [90; 10; -70]);
      [apply plain_valid|constructor|apply plain_picks_lon|now apply plain_lon|exact lonW_regular|apply plain_picks_lat|now apply plain_lat|exact C57_mismatch].
Qed.

(** ** C58: flattening *)
Theorem C58_flatten : forall T ds names rs om nt tf r, valid_ds ds -> NoDup (map fst names) ->
  from_dataset T ds names rs om nt tf = Ok r ->
  exists src extra latn lonn, origin ds names src /\ data_dims ds src extra latn lonn
    /\ picks ds names "lon" (Some lonn) /\ picks ds names "lat" (Some latn)
    /\ length r = fold_right Nat.mul 1%nat (map (ds_size ds) extra)
    /\ forall idx, in_range idx (map (ds_size ds) extra) ->
         exists s t, nth_error r (row_major (map (ds_size ds) extra) idx) = Some s
           /\ slab_time ds names extra idx latn lonn tf t /\ s_time s = t
           /\ slab_state T (s_grid s) src extra idx latn lonn t = Ok s.
Proof.
  intros T ds names rs om nt tf r V N H.
  destruct (from_inv T ds names rs om nt tf V N r H) as (lonn & latn & lon & lat & dlon & g & src & extra & A & [L S]).
  destruct A as (P1 & P2 & C1 & C2 & R1 & R2 & G & O & SD & DD). exists src, extra, latn, lonn.
  do 4 (split; [assumption|]). split; [exact L|]. intros idx R. destruct (S idx R) as (s & t & E1 & E2 & E3 & _).
  destruct (slab_state_grid _ _ _ _ _ _ _ _ _ E3) as [Q1 Q2]. exists s, t. split; [exact E1|]. split; [exact E2|]. split; [exact Q2|]. now rewrite Q1.
Qed.
Print Assumptions C58_flatten.

(** which datasets are read: any number of extra dimensions of any size, if the
    labels along each of them are different (and exist, in the case of the wind) *)
Theorem C58_accepts : forall T ds names rs om nt tf lonn latn lon lat dlon g src extra, valid_ds ds -> NoDup (map fst names) ->
  picks ds names "lon" (Some lonn) -> picks ds names "lat" (Some latn) ->
  coordinate ds lonn lon -> coordinate ds latn lat ->
  regular_lon lon dlon -> regular_lat lat (length lon) dlon ->
  mk_grid dlon rs om nt = Ok g -> g_nlon g = length lon -> g_nlat g = length lat ->
  origin ds names src -> data_dims ds src extra latn lonn ->
  (forall u v, src = FromWind u v -> long_dims ds u = long_dims ds v /\ Forall (fun d => In d (map fst (ds_vars ds))) extra) ->
  Forall (distinct_labels ds) extra ->
  (forall v, time_coord ds names (extra ++ [latn; lonn]) v -> time_coord ds names extra v) ->
  exists r, from_dataset T ds names rs om nt tf = Ok r.
Proof.
  intros T ds names rs om nt tf lonn latn lon lat dlon g src extra V N P1 P2 C1 C2 R1 R2 G L1 L2 O DD W U TC.
  assert (D1 : is_dimension ds latn) by (apply (origin_dim ds names src latn O); rewrite DD; apply in_or_app; cbn; auto).
  assert (D2 : is_dimension ds lonn) by (apply (origin_dim ds names src lonn O); rewrite DD; apply in_or_app; cbn; auto).
  apply (from_complete T ds names rs om nt tf V N lonn latn lon lat dlon g src extra); auto.
  - unfold accepted. repeat (split; [assumption|]). split; [|assumption]. destruct src as [u v|x|x]; cbn; try easy. now apply (W u v).
  - now rewrite <- (coord_len ds latn lat V D1 C2).
  - now rewrite <- (coord_len ds lonn lon V D2 C1).
  - destruct src as [u v|x|x]; cbn; try easy. now apply (W u v).
Qed.
Print Assumptions C58_accepts.

(** Repeated labels: no states are returned. *)
Theorem C58_repeated_labels : forall T ds names rs om nt tf src extra latn lonn d, valid_ds ds -> NoDup (map fst names) ->
  picks ds names "lon" (Some lonn) -> picks ds names "lat" (Some latn) ->
  origin ds names src -> data_dims ds src extra latn lonn ->
  In d extra -> ~ distinct_labels ds d -> (forall e, In e extra -> ds_size ds e <> 0%nat) ->
  forall r, from_dataset T ds names rs om nt tf <> Ok r.
Proof.
  intros T ds names rs om nt tf src extra latn lonn d V N P1 P2 O DD I ND NZ r H.
  destruct (from_inv T ds names rs om nt tf V N r H) as (lonn' & latn' & lon & lat & dlon & g & src' & extra' & A & S).
  destruct A as (Q1 & Q2 & C1 & C2 & R1 & R2 & G & O' & SD & DD').
  rewrite <- (origin_fun _ _ _ _ V N O O') in *. unfold data_dims in DD, DD'. rewrite DD in DD'.
  assert (E : extra' = extra).
  { change [latn; lonn] with ([latn] ++ [lonn]) in DD'. change [latn'; lonn'] with ([latn'] ++ [lonn']) in DD'.
    rewrite !app_assoc in DD'. apply app_inj_tail in DD' as [DD' _]. now apply app_inj_tail in DD' as [DD' _]. }
  subst extra'.
  assert (NE : r <> []).
  { intros ->. destruct S as [L _]. cbn in L. clear - L NZ. induction extra as [|e extra IH]; [cbn in L; lia|].
    change (0%nat = (ds_size ds e * size_of (map (ds_size ds) extra))%nat) in L. pose proof (NZ e (or_introl eq_refl)).
    apply IH; [intros; apply NZ; now right|]. symmetry in L. apply Nat.eq_mul_0 in L. destruct L; [easy|now symmetry]. }
  assert (U : Forall (distinct_labels ds) extra).
  { apply (states_distinct T ds names tf g src extra latn' lonn' r V S NE). intros e Ie. apply (origin_dim ds names src e O).
    rewrite DD. apply in_or_app. now left. }
  rewrite Forall_forall in U. exact (ND (U d I)).
Qed.
Print Assumptions C58_repeated_labels.

(** three dimensions: two members and three times, the time depends on the member too *)
Definition forecast : dataset :=
  mkDs (fun d => if String.eqb d "member" then 2%nat else if String.eqb d "lead" then 3%nat else if String.eqb d "level" then 1%nat
                 else if String.eqb d "longitude" then 4%nat else if String.eqb d "latitude" then 3%nat else 0%nat)
    [("longitude", vec_coord "longitude" (map (@VNum numR) lonW));
     ("latitude", vec_coord "latitude" (map (@VNum numR) lat4));
     ("lead", vec_coord "lead" (map (@VNum numR) [0; 6; 12]));
     ("time", mkVar true ["lead"; "member"] (fun idx => @VNum numR (INR (10 * nth 1 idx 0%nat + nth 0 idx 0%nat))));
     ("relv", mkVar false ["level"; "member"; "lead"; "latitude"; "longitude"]
        (fun idx => @VNum numR (INR (nth 1 idx 0%nat * 100 + nth 2 idx 0%nat * 10 + nth 3 idx 0%nat + nth 4 idx 0%nat))))].
Lemma forecast_valid : valid_ds forecast.
Proof.
  split; [cbn; repeat constructor; cbn; intuition congruence|]. intros n v I.
  assert (Dn : is_dimension forecast n -> In n ["longitude"; "latitude"; "lead"; "member"; "level"]).
  { intros (m & w & J & K). cbn in J. destruct J as [J|[J|[J|[J|[J|[]]]]]]; inversion J; subst; cbn in K; cbn; intuition congruence. }
  cbn in I. destruct I as [I|[I|[I|[I|[I|[]]]]]]; inversion I; subst; (split; [cbn; repeat constructor; cbn; intuition congruence|]); try easy;
    intros Q; apply Dn in Q; cbn in Q; intuition congruence.
Qed.

Lemma forecast_picks ref n before after : documented ref = before ++ n :: after -> In n (map fst (ds_vars forecast)) ->
  (forall m, In m before -> ~ In m (map fst (ds_vars forecast))) -> picks forecast [] ref (Some n).
Proof. intros E I B. apply (picks_found _ _ _ before n after); easy. Qed.
Lemma forecast_none ref : In ref ["u"; "v"] -> picks forecast [] ref None.
Proof.
  intros I. apply picks_nothing; [easy|]. intros m M. cbn in I. destruct I as [<-|[<-|[]]]; cbn in M; cbn; intuition congruence.
Qed.
Definition forecast_data : xvar := mkVar false ["level"; "member"; "lead"; "latitude"; "longitude"]
        (fun idx => @VNum numR (INR (nth 1 idx 0%nat * 100 + nth 2 idx 0%nat * 10 + nth 3 idx 0%nat + nth 4 idx 0%nat))).
Lemma forecast_origin : origin forecast [] (FromVo forecast_data).
Proof.
  apply (origin_vo _ _ "relv"); [left; apply forecast_none; cbn; auto| |constructor; cbn; auto 10].
  apply (forecast_picks "vo" "relv" ["vo"] ["vorticity"; "relative_vorticity"]); [reflexivity|cbn; auto 10|].
  intros m M. cbn in M. cbn. intuition congruence.
Qed.
Lemma forecast_lon : coordinate forecast "longitude" lonW.
Proof.
  exists (vec_coord "longitude" (map (@VNum numR) lonW)), "longitude". repeat split; [constructor; cbn; auto|].
  intros k K. cbn in K. cbn -[lonW]. rewrite (nth_map_lt _ _ _ 0) by (cbn; lia). reflexivity.
Qed.
Lemma forecast_lat : coordinate forecast "latitude" lat4.
Proof.
  exists (vec_coord "latitude" (map (@VNum numR) lat4)), "latitude". repeat split; [constructor; cbn; auto|].
  intros k K. cbn in K. cbn -[lat4]. rewrite (nth_map_lt _ _ _ 0) by (cbn; lia). reflexivity.
Qed.
Lemma forecast_labels : Forall (distinct_labels forecast) ["member"; "lead"].
Proof.
  assert (M : named forecast "member" (mkVar true ["member"] (fun idx => @VNum numR (INR (hd 0%nat idx))))).
  { apply named_dim; [cbn; intuition congruence| |cbn; lia]. exists "relv", forecast_data. split; cbn; auto 10. }
  assert (L : named forecast "lead" (vec_coord "lead" (map (@VNum numR) [0; 6; 12]))) by (constructor; cbn; auto).
  constructor; [|constructor; [|constructor]]; intros x i j X I J E.
  - rewrite (named_fun _ _ _ _ forecast_valid X M) in E. cbn in E. assert (Q : INR i = INR j) by congruence. now apply INR_eq.
  - rewrite (named_fun _ _ _ _ forecast_valid X L) in E. cbn in I, J. cbn in E.
    destruct i as [|[|[|i]]]; destruct j as [|[|[|j]]]; try lia; exfalso; assert (Q : forall a b : R, @VNum numR a = @VNum numR b -> a = b) by (intros; congruence);
    apply Q in E; lra.
Qed.
(** Six states; number 4 is member 1 at lead 6 with its own time, read from row
    (member 1, lead 6) of the variable although the time is stored as (lead, member). *)
Example C58_nonvacuous : forall T tf, exists r s, from_dataset T forecast [] 1 1 (Some 1%Z) tf = Ok r /\ length r = 6%nat
  /\ nth_error r 4 = Some s /\ s_time s = @VNum numR (INR 11)
  /\ state_from_vorticity T (d1_grid 1 1) (@VNum numR (INR 11)) (mat_of 3 4 (fun i j => INR (110 + i + j))) = Ok s.
Proof.
  intros T tf. assert (G : mk_grid 90 1 1 (Some 1%Z) = Ok (d1_grid 1 1)) by (apply d1_grid_ok; lra).
  assert (P1 : picks forecast [] "lon" (Some "longitude")) by (apply (forecast_picks "lon" "longitude" [] ["lon"]); cbn; auto; easy).
  assert (P2 : picks forecast [] "lat" (Some "latitude")) by (apply (forecast_picks "lat" "latitude" [] ["lat"]); cbn; auto; easy).
  assert (P3 : picks forecast [] "time" (Some "time")) by (apply (forecast_picks "time" "time" [] []); cbn; auto 10; easy).
  assert (DD : data_dims forecast (FromVo forecast_data) ["member"; "lead"] "latitude" "longitude") by reflexivity.
  assert (TT : forall dims v, time_coord forecast [] dims v -> v = mkVar true ["lead"; "member"] (fun idx => @VNum numR (INR (10 * nth 1 idx 0%nat + nth 0 idx 0%nat)))).
  { intros dims v (n & P & I & _). pose proof (picks_fun forecast [] _ _ _ (NoDup_nil _) P P3) as E. assert (n = "time") by congruence. subst n.
    apply (In_assoc _ _ _ (proj1 forecast_valid)) in I. unfold forecast in I. cbn [ds_vars assoc String.eqb Ascii.eqb Bool.eqb] in I. congruence. }
  assert (TC : time_coord forecast [] ["member"; "lead"] (mkVar true ["lead"; "member"] (fun idx => @VNum numR (INR (10 * nth 1 idx 0%nat + nth 0 idx 0%nat))))).
  { exists "time". split; [exact P3|]. split; [cbn; auto 10|]. split; [reflexivity|]. intros d D. cbn in D. cbn. intuition. }
  assert (A : accepted forecast [] 1 1 (Some 1%Z) "longitude" "latitude" lonW lat4 90 (d1_grid 1 1) (FromVo forecast_data) ["member"; "lead"]).
  { unfold accepted. split; [exact P1|]. split; [exact P2|]. split; [exact forecast_lon|]. split; [exact forecast_lat|].
    split; [exact lonW_regular|]. split; [apply lat4_regular; cbn; try lra; reflexivity|]. split; [exact G|].
    split; [exact forecast_origin|]. split; [exact I|exact DD]. }
  destruct (C58_accepts T forecast [] 1 1 (Some 1%Z) tf "longitude" "latitude" lonW lat4 90 (d1_grid 1 1) (FromVo forecast_data) ["member"; "lead"] forecast_valid (NoDup_nil _) P1 P2) as (r & H);
    try easy.
  - exact forecast_lon.
  - exact forecast_lat.
  - exact lonW_regular.
  - apply lat4_regular; cbn; try lra; reflexivity.
  - exact forecast_origin.
  - exact forecast_labels.
  - intros v Hv. now rewrite (TT _ _ Hv).
  - pose proof (from_states T forecast [] 1 1 (Some 1%Z) tf _ _ _ _ _ _ _ _ r forecast_valid (NoDup_nil _) A H) as [L S].
    destruct (S [1; 1]%nat) as (s & t & E1 & E2 & E3 & _). { repeat constructor. }
    exists r, s. split; [exact H|]. split; [exact L|]. split; [exact E1|].
    assert (Et : t = @VNum numR (INR 11)).
    { destruct E2 as [(v & Hv & ->)|[NT _]].
      - rewrite (TT _ _ Hv). reflexivity.
      - exfalso. destruct TC as (n & T1 & T2 & T3 & T4). eapply NT. exists n. split; [exact T1|]. split; [exact T2|]. split; [exact T3|].
        intros d D. apply T4 in D. cbn in D. cbn. intuition. }
    subst t. split; [now apply slab_state_grid in E3|]. cbn [slab_state] in E3. rewrite <- E3. f_equal.
Qed.

(** ** C59: priority and names *)
(** every quantity has exactly one name or none *)
Theorem C59_names : forall ds names ref, NoDup (map fst names) -> exists o, picks ds names ref o /\ forall o', picks ds names ref o' -> o' = o.
Proof.
  intros ds names ref N. exists (var_map (squeeze ds) names ref).
  assert (P : picks ds names ref (var_map (squeeze ds) names ref)) by now apply (vm ds names N).
  split; [exact P|]. intros o' P'. exact (picks_fun _ _ _ _ _ N P' P).
Qed.
Print Assumptions C59_names.
(** the states come from the one origin determined by the priority *)
Theorem C59_source : forall T ds names rs om nt tf r, valid_ds ds -> NoDup (map fst names) ->
  from_dataset T ds names rs om nt tf = Ok r ->
  exists src, origin ds names src /\ (forall src', origin ds names src' -> src' = src)
    /\ exists extra latn lonn, data_dims ds src extra latn lonn
         /\ forall s, In s r -> exists idx, in_range idx (map (ds_size ds) extra)
              /\ slab_state T (s_grid s) src extra idx latn lonn (s_time s) = Ok s.
Proof.
  intros T ds names rs om nt tf r V N H.
  destruct (from_inv T ds names rs om nt tf V N r H) as (lonn & latn & lon & lat & dlon & g & src & extra & A & S).
  destruct A as (P1 & P2 & C1 & C2 & R1 & R2 & G & O & SD & DD). exists src. split; [exact O|].
  split; [intros src' O'; exact (origin_fun _ _ _ _ V N O' O)|]. exists extra, latn, lonn. split; [exact DD|].
  intros s I. destruct (states_In _ _ _ _ _ _ _ _ _ _ _ S I) as (idx & t & R & _ & E & Eg & Et & _). exists idx. split; [exact R|]. now rewrite Eg, Et.
Qed.
Print Assumptions C59_source.
Theorem C59_nothing : forall T ds names rs om nt tf lonn latn lon lat dlon g, valid_ds ds -> NoDup (map fst names) ->
  picks ds names "lon" (Some lonn) -> picks ds names "lat" (Some latn) ->
  coordinate ds lonn lon -> coordinate ds latn lat -> regular_lon lon dlon -> regular_lat lat (length lon) dlon ->
  mk_grid dlon rs om nt = Ok g ->
  picks ds names "u" None \/ picks ds names "v" None -> picks ds names "vo" None -> picks ds names "avo" None ->
  from_dataset T ds names rs om nt tf = Err ValueError.
Proof.
  intros T ds names rs om nt tf lonn latn lon lat dlon g V N P1 P2 C1 C2 R1 R2 G W Vo Av.
  assert (E1 : check_lon (squeeze ds) (var_map (squeeze ds) names "lon") = Ok (lonn, lon, dlon)) by (apply (lon_stage ds names V N); auto).
  assert (E2 : check_lat (squeeze ds) (var_map (squeeze ds) names "lat") lon dlon = Ok (latn, lat)) by (apply (lat_stage ds names V N); auto).
  unfold from_dataset. cbv zeta. rewrite E1. cbn [bind]. rewrite E2. cbn [bind]. rewrite G. cbn [bind].
  now rewrite (choose_none ds names N W Vo Av).
Qed.
Print Assumptions C59_nothing.
(** A given name that does not exist is not replaced by another quantity. *)
Theorem C59_wrong_override : forall T ds names rs om nt tf ref n, valid_ds ds -> NoDup (map fst names) ->
  In (ref, Some n) names -> ~ In n (map fst (ds_vars ds)) -> ~ is_dimension ds n ->
  (forall x, ref = "u" \/ ref = "v" -> picks ds names (if String.eqb ref "u" then "v" else "u") x -> x <> None) ->
  ref = "lon" \/ ref = "lat" \/ ref = "u" \/ ref = "v" \/ (ref = "vo" /\ (picks ds names "u" None \/ picks ds names "v" None))
    \/ (ref = "avo" /\ (picks ds names "u" None \/ picks ds names "v" None) /\ picks ds names "vo" None) ->
  forall r, from_dataset T ds names rs om nt tf <> Ok r.
Proof.
  intros T ds names rs om nt tf ref n V N I NI ND W C r H.
  assert (NN : forall x, ~ named ds n x). { intros x [v J|A B E]; [apply NI; apply (in_map fst) in J; exact J|exact (ND B)]. }
  pose proof (picks_given ds names ref (Some n) I) as P.
  destruct (from_inv T ds names rs om nt tf V N r H) as (lonn & latn & lon & lat & dlon & g & src & extra & A & _).
  destruct A as (P1 & P2 & C1 & C2 & R1 & R2 & G & O & SD & DD).
  assert (F : forall ref o o', picks ds names ref o -> picks ds names ref o' -> o = o') by (intros; eapply picks_fun; eauto).
  assert (K : forall m x, Some m = Some n -> named ds m x -> False) by (intros m x E X; inversion E; subst; exact (NN x X)).
  destruct C as [->|[->|[->|[->|[[-> C]|[-> [C C']]]]]]].
  - destruct C1 as (v & d & X & _). exact (K _ _ (F _ _ _ P1 P) X).
  - destruct C2 as (v & d & X & _). exact (K _ _ (F _ _ _ P2 P) X).
  - destruct O as [nu nv u v Pu Pv Nu Nv|m x [O|O] Po Nx|m x [O|O] Po Pa Nx].
    + exact (K _ _ (F _ _ _ Pu P) Nu).
    + pose proof (F _ _ _ O P). easy.
    + exact (W None (or_introl eq_refl) O eq_refl).
    + pose proof (F _ _ _ O P). easy.
    + exact (W None (or_introl eq_refl) O eq_refl).
  - destruct O as [nu nv u v Pu Pv Nu Nv|m x [O|O] Po Nx|m x [O|O] Po Pa Nx].
    + exact (K _ _ (F _ _ _ Pv P) Nv).
    + exact (W None (or_intror eq_refl) O eq_refl).
    + pose proof (F _ _ _ O P). easy.
    + exact (W None (or_intror eq_refl) O eq_refl).
    + pose proof (F _ _ _ O P). easy.
  - destruct O as [nu nv u v Pu Pv Nu Nv|m x O Po Nx|m x O Po Pa Nx].
    + destruct C as [C|C]; [pose proof (F _ _ _ Pu C)|pose proof (F _ _ _ Pv C)]; easy.
    + exact (K _ _ (F _ _ _ Po P) Nx).
    + pose proof (F _ _ _ Po P). easy.
  - destruct O as [nu nv u v Pu Pv Nu Nv|m x O Po Nx|m x O Po Pa Nx].
    + destruct C as [C|C]; [pose proof (F _ _ _ Pu C)|pose proof (F _ _ _ Pv C)]; easy.
    + pose proof (F _ _ _ Po C'). easy.
    + exact (K _ _ (F _ _ _ Pa P) Nx).
Qed.
Print Assumptions C59_wrong_override.

(** relv wins over absv; with vo switched off by the user absv is used; vgrd
    without ugrd does not make a wind *)
Definition analysis : dataset :=
  mkDs (fun d => if String.eqb d "lon" then 4%nat else if String.eqb d "lat" then 3%nat else 0%nat)
    [("lon", vec_coord "lon" (map (@VNum numR) lonW)); ("lat", vec_coord "lat" (map (@VNum numR) lat4));
     ("absv", mkVar false ["lat"; "lon"] (fun _ => @VNum numR 1)); ("relv", mkVar false ["lat"; "lon"] (fun _ => @VNum numR 2));
     ("vgrd", mkVar false ["lat"; "lon"] (fun _ => @VNum numR 3)); ("speed", mkVar false ["lat"; "lon"] (fun _ => @VNum numR 4))].
Example C59_nonvacuous :
  origin analysis [] (FromVo (mkVar false ["lat"; "lon"] (fun _ => @VNum numR 2)))
  /\ origin analysis [("vo", None)] (FromAvo (mkVar false ["lat"; "lon"] (fun _ => @VNum numR 1)))
  /\ origin analysis [("u", Some "speed")] (FromWind (mkVar false ["lat"; "lon"] (fun _ => @VNum numR 4)) (mkVar false ["lat"; "lon"] (fun _ => @VNum numR 3)))
  /\ picks analysis [] "lon" (Some "lon").
Proof.
  assert (NU : forall names, ~ In "u" (map fst names) -> picks analysis names "u" None).
  { intros names NI. apply picks_nothing; [exact NI|]. intros m M. cbn in M. cbn. intuition congruence. }
  split; [|split; [|split]].
  - apply (origin_vo _ _ "relv"); [left; now apply NU| |constructor; cbn; auto 10].
    apply (picks_found _ _ _ ["vo"] "relv" ["vorticity"; "relative_vorticity"]); [easy|reflexivity|cbn; auto 10|].
    intros m M. cbn in M. cbn. intuition congruence.
  - apply (origin_avo _ _ "absv"); [left; apply NU; cbn; intuition congruence|apply picks_given; cbn; auto| |constructor; cbn; auto 10].
    apply (picks_found _ _ _ ["avo"] "absv" ["absolute_vorticity"; "pv"]); [cbn; intuition congruence|reflexivity|cbn; auto 10|].
    intros m M. cbn in M. cbn. intuition congruence.
  - apply (origin_wind _ _ "speed" "vgrd"); [apply picks_given; cbn; auto| |constructor; cbn; auto 10|constructor; cbn; auto 10].
    apply (picks_found _ _ _ ["v"] "vgrd" ["northward_wind"]); [cbn; intuition congruence|reflexivity|cbn; auto 10|].
    intros m M. cbn in M. cbn. intuition congruence.
  - apply (picks_found _ _ _ ["longitude"] "lon" []); [easy|reflexivity|cbn; auto 10|].
    intros m M. cbn in M. cbn. intuition congruence.
Qed.

(** ** C60: export *)
(** The variable of a field has the concatenation dimension first and the
    dimensions of the field by its shape; element (k, idx) is element idx of the
    field of state k. *)
Theorem C60_fields : forall states fields cd attr ds, cd <> "latitude" -> cd <> "longitude" -> states <> [] ->
  as_dataset states fields cd attr = Ok ds ->
  exists s0 sts, states = map XState (s0 :: sts)
    /\ forall name getter, In (name, getter) fields ->
       exists v shape datas inner, In (name, v) (ds_vars ds) /\ x_coord v = false
         /\ stacked getter (s0 :: sts) shape datas /\ inner_dims (s_grid s0) shape inner
         /\ x_dims v = cd :: inner /\ map (ds_size ds) (x_dims v) = length states :: shape
         /\ ((forall s x, In s (s0 :: sts) -> getter s = Ok x -> proper x) ->
              forall k idx, (k < length states)%nat -> in_range idx shape ->
              x_at v (k :: idx) = @VNum numR (nth (row_major shape idx) (nth k datas []) 0)).
Proof.
  intros states fields cd attr ds A B NE H. destruct (as_inv _ _ _ _ _ NE H) as (s0 & sts & cc & vars & E1 & E2 & E3 & E4 & E5 & E6).
  exists s0, sts. split; [exact E1|]. intros name getter I. destruct (res_map_In _ _ _ _ E3 I) as ((n & (shape0 & v)) & J & K).
  cbn [fst snd] in K. destruct (export_field _ _ _ getter) as [[sh w]|] eqn:X; [|easy]. cbn [bind] in K.
  assert (NE2 : s0 :: sts <> []) by easy.
  assert (n = name /\ sh = shape0 /\ w = v) as (-> & -> & ->) by (repeat split; congruence).
  rewrite Forall_forall in E5. pose proof (E5 _ J) as Fi. cbn [fst snd] in Fi.
  destruct (export_inv _ _ _ _ _ _ A B NE2 X Fi) as (shape & datas & inner & St & In1 & C & D & Ev).
  assert (Ln : length states = length (s0 :: sts)) by now rewrite E1, map_length.
  exists v, shape, datas, inner. split; [|split; [exact C|split; [exact St|split; [exact In1|split; [exact D|split]]]]].
  - rewrite E6. cbn [ds_vars]. apply in_or_app. right. apply in_map_iff. now exists (name, (shape0, v)).
  - rewrite D, E6. cbn [ds_size map]. rewrite (out_cd _ _ _ A B), Ln. f_equal.
    destruct In1 as [[-> ->]|[[-> ->]|[[-> ->]|[-> ->]]]]; reflexivity.
  - intros PR k idx Kl R. rewrite Ev. apply nd_var_at; [| |exact R].
    + clear - St PR. unfold stacked in St. induction St as [|s d l ds (x & G & FV) St IH]; constructor.
      * specialize (PR s x (or_introl eq_refl) G). destruct FV as [->|(-> & y & -> & ->)]; [exact PR|reflexivity].
      * apply IH. intros. eapply PR; eauto. now right.
    + rewrite <- (Forall2_len _ _ _ St). now rewrite <- Ln.
Qed.
Print Assumptions C60_fields.

(** the shape tells latitude and longitude apart on every grid *)
Theorem C60_lat_is_not_lon : forall res rs om nt g, mk_grid res rs om nt = Ok g -> g_nlat g <> g_nlon g.
Proof. exact grid_dims_differ. Qed.
Print Assumptions C60_lat_is_not_lon.

(** coordinates *)
Theorem C60_coordinates : forall states fields cd attr ds, cd <> "latitude" -> cd <> "longitude" -> states <> [] ->
  as_dataset states fields cd attr = Ok ds ->
  exists s0 sts, states = map XState (s0 :: sts)
    /\ (exists v, In ("latitude", v) (ds_vars ds) /\ x_coord v = true /\ x_dims v = ["latitude"] /\ ds_size ds "latitude" = g_nlat (s_grid s0)
          /\ forall k, (k < g_nlat (s_grid s0))%nat -> x_at v [k] = @VNum numR (nth k (g_lat (s_grid s0)) 0))
    /\ (exists v, In ("longitude", v) (ds_vars ds) /\ x_coord v = true /\ x_dims v = ["longitude"] /\ ds_size ds "longitude" = g_nlon (s_grid s0)
          /\ forall k, (k < g_nlon (s_grid s0))%nat -> x_at v [k] = @VNum numR (nth k (g_lon (s_grid s0)) 0))
    /\ (exists v, In ("time", v) (ds_vars ds) /\ x_coord v = true /\ x_dims v = ["time"] /\ ds_size ds "time" = length states
          /\ forall k s, nth_error (s0 :: sts) k = Some s -> x_at v [k] = s_time s)
    /\ (cd <> "time" -> exists v, In (cd, v) (ds_vars ds) /\ x_coord v = true /\ x_dims v = [cd] /\ ds_size ds cd = length states
          /\ (attr = None -> forall k, x_at v [k] = @VNum numR (INR k))
          /\ forall f, attr = Some f -> (forall s x, In s (s0 :: sts) -> f s = Ok x -> proper x) -> exists xs, stacked f (s0 :: sts) [] xs
                 /\ forall k, (k < length states)%nat -> x_at v [k] = @VNum numR (nth 0 (nth k xs []) 0)).
Proof.
  intros states fields cd attr ds A B NE H. destruct (as_inv _ _ _ _ _ NE H) as (s0 & sts & cc & vars & E1 & E2 & E3 & E4 & E5 & E6).
  assert (Ln : length states = length (s0 :: sts)) by now rewrite E1, map_length.
  assert (Inb : forall f, In f (base_coords (s_grid s0) (s0 :: sts) ++ cc) -> In f (ds_vars ds)).
  { intros f I. rewrite E6. cbn [ds_vars]. apply in_or_app. now left. }
  exists s0, sts. split; [exact E1|]. split; [|split; [|split]].
  - eexists. split; [apply Inb, in_or_app; left; left; reflexivity|]. split; [reflexivity|]. split; [reflexivity|]. split; [rewrite E6; reflexivity|].
    intros k K. cbn [vec_coord x_at hd]. now rewrite (nth_map_lt _ _ _ 0) by now rewrite lat_length.
  - eexists. split; [apply Inb, in_or_app; left; right; left; reflexivity|]. split; [reflexivity|]. split; [reflexivity|]. split; [rewrite E6; reflexivity|].
    intros k K. cbn [vec_coord x_at hd]. now rewrite (nth_map_lt _ _ _ 0) by now rewrite lon_length.
  - eexists. split; [apply Inb, in_or_app; left; right; right; left; reflexivity|]. split; [reflexivity|]. split; [reflexivity|].
    split; [rewrite E6; cbn [ds_size]; now rewrite out_time|].
    intros k s K. cbn [vec_coord x_at hd]. apply nth_error_nth. now rewrite nth_error_map, K.
  - intros NT. unfold concat_coord in E2. destruct (String.eqb_spec cd "time"); [easy|].
    destruct attr as [f|].
    + destruct (sl_map f (s0 :: sts)) as [[[[|n1 [|? ?]] d]|ll|ll]|] eqn:M; try easy. cbn [bind] in E2. assert (E : cc = [(cd, vec_coord cd (map (@VNum numR) d))]) by congruence. subst cc.
      assert (NE2 : s0 :: sts <> []) by easy.
      destruct (map_array _ _ _ NE2 M) as (shape & datas & St & Q). assert (shape = [] /\ d = concat datas) as [-> ->] by (split; congruence).
      exists (vec_coord cd (map (@VNum numR) (concat datas))). split; [apply Inb, in_or_app; right; now left|]. split; [reflexivity|]. split; [reflexivity|].
      split; [rewrite E6; cbn [ds_size]; now rewrite (out_cd _ _ _ A B)|]. split; [easy|]. intros f' Ef. assert (f' = f) by congruence. subst f'.
      intros PR. exists datas. split; [exact St|]. intros k K. cbn [vec_coord x_at hd].
      assert (L1 : Forall (fun d => length d = 1%nat) datas).
      { clear - St PR. unfold stacked in St. induction St as [|s d l ds (x & G & FV) St IH]; constructor.
        - specialize (PR s x (or_introl eq_refl) G). destruct FV as [->|(_ & y & -> & ->)]; [exact PR|reflexivity].
        - apply IH. intros. eapply PR; eauto. now right. }
      assert (L2 : length (concat datas) = length datas).
      { clear - L1. induction L1 as [|d ds Hd L1 IH]; [easy|]. cbn. rewrite app_length, Hd, IH. reflexivity. }
      pose proof (Forall2_len _ _ _ St) as L3.
      rewrite (nth_map_lt _ _ _ 0) by (rewrite L2; lia). f_equal.
      replace k with (k * 1 + 0)%nat at 1 by lia. apply nth_concat; [exact L1|lia|lia].
    + assert (E : cc = [(cd, arange_var cd)]) by congruence. subst cc. exists (arange_var cd). split; [apply Inb, in_or_app; right; now left|].
      split; [reflexivity|]. split; [reflexivity|]. split; [rewrite E6; cbn [ds_size]; now rewrite (out_cd _ _ _ A B)|]. split; [reflexivity|easy].
Qed.
Print Assumptions C60_coordinates.

Theorem C60_no_states : forall fields cd attr, exists ds, as_dataset [] fields cd attr = Ok ds /\ ds_vars ds = [].
Proof. intros. eexists. split; reflexivity. Qed.
Print Assumptions C60_no_states.

(** Fields with more than two dimensions and vectors of another length *)
Theorem C60_unsupported_partial : forall l name getter (a : state numR -> ndarr R) cd shape s0, l <> [] -> on_first_grid l -> hd_error l = Some s0 ->
  Forall (fun s => getter s = Ok (XArr (a s)) /\ nd_shape (a s) = shape) l ->
  (3 <= length shape)%nat \/ (exists n, shape = [n] /\ n <> g_nlat (s_grid s0) /\ n <> g_nlon (s_grid s0)) ->
  as_dataset (map XState l) [(name, getter)] cd None = Err NotImplementedError.
Proof.
  intros l name getter a cd shape s0 NE OF HD F C. destruct l as [|s l]; [easy|]. assert (s = s0) by (cbn in HD; congruence). subst s.
  unfold as_dataset. rewrite (proj2 (mk_accepts (map XState (s0 :: l)) (s0 :: l)) (conj eq_refl OF)). cbn [map bind sl_grid hd_error option_map].
  assert (CC : exists cc, concat_coord (s0 :: l) cd None = Ok cc) by (unfold concat_coord; destruct (String.eqb cd "time"); eauto).
  destruct CC as [cc ->]. cbn [bind res_map snd]. unfold export_field. rewrite (array_map getter (s0 :: l) shape a) by easy. cbn [bind nd_shape].
  assert (D : field_dims (s_grid s0) cd (length (s0 :: l) :: shape) = Err NotImplementedError).
  { destruct C as [C|(n & -> & C1 & C2)].
    - destruct shape as [|n1 [|n2 [|n3 r]]]; cbn in C; try lia. reflexivity.
    - cbn [field_dims]. destruct (Nat.eqb_spec n (g_nlat (s_grid s0))); [easy|]. destruct (Nat.eqb_spec n (g_nlon (s_grid s0))); easy. }
  rewrite D. reflexivity.
Qed.
Print Assumptions C60_unsupported_partial.
(** ... but two-dimensional fields of another shape are not recognised, xarray
    finds the conflict with the coordinates: a ValueError *)
Theorem C60_unsupported_refuted : forall l name getter (a : state numR -> ndarr R) n1 n2 s0, l <> [] -> on_first_grid l -> hd_error l = Some s0 ->
  Forall (fun s => getter s = Ok (XArr (a s)) /\ nd_shape (a s) = [n1; n2]) l ->
  [n1; n2] <> [g_nlat (s_grid s0); g_nlon (s_grid s0)] ->
  as_dataset (map XState l) [(name, getter)] "time" None = Err ValueError.
Proof.
  intros l name getter a n1 n2 s0 NE OF HD F C. destruct l as [|s l]; [easy|]. assert (s = s0) by (cbn in HD; congruence). subst s.
  unfold as_dataset. rewrite (proj2 (mk_accepts (map XState (s0 :: l)) (s0 :: l)) (conj eq_refl OF)). cbn [map bind sl_grid hd_error option_map].
  unfold concat_coord. cbn [String.eqb Ascii.eqb Bool.eqb bind res_map snd]. unfold export_field. rewrite (array_map getter (s0 :: l) [n1; n2] a) by easy.
  cbn [bind nd_shape field_dims fst snd]. destruct (existsb _ _); [easy|]. cbn [forallb fst snd]. rewrite andb_true_r.
  match goal with |- (if fits ?sz ?sh ?v then _ else _) = _ => assert (Q : fits sz sh v = false) end.
  { unfold fits. cbn [nd_var x_dims map]. rewrite out_time, out_lat, out_lon.
    destruct (shape_eqb _ _) eqn:E; [|easy]. apply shape_eqb_spec in E. exfalso. apply C. congruence. }
  now rewrite Q.
Qed.
Print Assumptions C60_unsupported_refuted.

(** two states, the PV and its zonal mean by name, and the wrong shapes *)
Definition two_states : list (state numR) := [example_state; mkState (d1_grid 1 1) (@VNum numR 600) [RtoC 0; RtoC 3; RtoC 0]].
Lemma two_first : on_first_grid two_states.
Proof. intros s0 H s I. cbn in H. assert (s0 = example_state) by congruence. subst s0. cbn in I. destruct I as [<-|[<-|[]]]; apply grid_eqb_refl. Qed.
Example C60_nonvacuous : exists ds v w,
  as_dataset (map XState two_states)
    [("pv", get_pv d1_family); ("pvbar", fun s => Ok (XArr (mkNd [3%nat] (map vmean (s_pv d1_family s)))))] "time" None = Ok ds
  /\ In ("pv", v) (ds_vars ds) /\ x_dims v = ["time"; "latitude"; "longitude"]
  /\ In ("pvbar", w) (ds_vars ds) /\ x_dims w = ["time"; "latitude"]
  /\ as_dataset (map XState two_states) [("x", fun s => Ok (XArr (mkNd [2%nat] [0; 0])))] "time" None = Err NotImplementedError
  /\ as_dataset (map XState two_states) [("x", fun s => Ok (XArr (mkNd [4; 3]%nat (repeat 0 12))))] "time" None = Err ValueError.
Proof.
  assert (M : mk_statelist (E := R) (O := unit) (map XState two_states) = Ok two_states) by (apply mk_accepts; split; [easy|exact two_first]).
  eexists _, _, _. split; [|split; [|split; [|split; [|split; [|split]]]]].
  - unfold as_dataset. rewrite M. reflexivity.
  - right; right; right; left. reflexivity.
  - reflexivity.
  - right; right; right; right; left. reflexivity.
  - reflexivity.
  - apply (C60_unsupported_partial two_states "x" _ (fun _ => mkNd [2%nat] [0; 0]) "time" [2%nat] example_state); try easy.
    + exact two_first.
    + repeat constructor.
    + right. exists 2%nat. cbn. split; [easy|]. lia.
  - apply (C60_unsupported_refuted two_states "x" _ (fun _ => mkNd [4; 3]%nat (repeat 0 12)) 4 3 example_state); try easy.
    + exact two_first.
    + repeat constructor.
Qed.

(** ** C61: writing and reading back *)
(** From the wind: the same times and PV on a grid with the same points, whose
    resolution is the actual spacing of the longitudes.  Needs different times,
    an even number of longitudes, no global-mean vorticity. *)
Theorem C61_roundtrip_wind_partial : forall T res rs om nt g tf l, mk_grid res rs om nt = Ok g -> exact_on T g ->
  l <> [] -> Forall (on_grid T g) l -> Nat.even (g_nlon g) = true -> NoDup (map s_time l) ->
  Forall (fun s => coef (s_vorticity_spectral T s) 0 = RtoC 0) l ->
  exists ds, as_dataset (map XState l) [("u", get_u T); ("v", get_v T)] "time" None = Ok ds
    /\ from_dataset T ds [] rs om nt tf = Ok (map (moved g) l).
Proof.
  intros T res rs om nt g tf l Hg EX NE OG EV NT ZM.
  destruct (round_wind T res rs om nt g tf l Hg EX NE OG EV NT) as (ds & r & A & B & C). exists ds. split; [exact A|]. rewrite B. f_equal.
  apply (Forall2_moved T g (KWind (s_u T) (s_v T))); [|exact C]. apply Forall_forall. intros s I. rewrite Forall_forall in OG, ZM.
  cbn [rebuilt]. apply from_wind; auto.
Qed.
Print Assumptions C61_roundtrip_wind_partial.
(** From the PV: without a condition on the vorticity. *)
Theorem C61_roundtrip_pv_partial : forall T res rs om nt g tf l, mk_grid res rs om nt = Ok g -> exact_on T g ->
  l <> [] -> Forall (on_grid T g) l -> Nat.even (g_nlon g) = true -> NoDup (map s_time l) ->
  exists ds, as_dataset (map XState l) [("pv", get_pv T)] "time" None = Ok ds
    /\ from_dataset T ds [] rs om nt tf = Ok (map (moved g) l).
Proof. intros T res rs om nt g tf l Hg EX NE OG EV NT. exact (round_pv T res rs om nt g tf l Hg EX NE OG EV NT). Qed.
Print Assumptions C61_roundtrip_pv_partial.
(** If the resolution divides the circle, the states are the original ones. *)
Theorem C61_same_grid : forall res rs om nt g l, mk_grid res rs om nt = Ok g -> res * INR (g_nlon g) = 360 ->
  (forall s : state numR, In s l -> s_grid s = g) -> map (moved g) l = l.
Proof.
  intros res rs om nt g l Hg E H. induction l as [|s l IH]; [easy|]. cbn [map]. f_equal.
  - unfold moved. rewrite (respaced_id _ _ _ _ _ Hg E). pose proof (H s (or_introl eq_refl)) as Q. destruct s; cbn in *. now subst.
  - apply IH. intros. apply H. now right.
Qed.
Print Assumptions C61_same_grid.
(** Otherwise they compare equal (Grid.__eq__ does not look at the resolution). *)
Theorem C61_equal_grid : forall g (s : state numR), s_grid s = g -> grid_eqb (s_grid (moved g s)) (s_grid s) = true
  /\ g_lon (s_grid (moved g s)) = g_lon g /\ g_lat (s_grid (moved g s)) = g_lat g.
Proof. intros g s E. rewrite E. split; [exact (grid_eqb_refl g)|]. split; reflexivity. Qed.
Print Assumptions C61_equal_grid.

(** What the conditions are for: equal times, *)
Theorem C61_equal_times_refuted : forall T res rs om nt g tf l, mk_grid res rs om nt = Ok g ->
  l <> [] -> Forall (fun s => s_grid s = g /\ shaped (g_nlat g) (g_nlon g) (s_u T s) /\ shaped (g_nlat g) (g_nlon g) (s_v T s)) l ->
  Nat.even (g_nlon g) = true -> ~ NoDup (map s_time l) ->
  exists ds, as_dataset (map XState l) [("u", get_u T); ("v", get_v T)] "time" None = Ok ds
    /\ forall r, from_dataset T ds [] rs om nt tf <> Ok r.
Proof.
  intros T res rs om nt g tf l Hg NE OG EV NT. eexists. split; [apply (wind_export T res rs om nt g l Hg NE OG)|].
  intros r. eapply equal_times; eauto.
Qed.
Print Assumptions C61_equal_times_refuted.
(** a global-mean vorticity is lost, *)
Theorem C61_mean_vorticity_refuted : forall T res rs om nt g tf l, mk_grid res rs om nt = Ok g -> exact_on T g ->
  l <> [] -> Forall (on_grid T g) l -> Nat.even (g_nlon g) = true -> NoDup (map s_time l) ->
  exists ds r, as_dataset (map XState l) [("u", get_u T); ("v", get_v T)] "time" None = Ok ds
    /\ from_dataset T ds [] rs om nt tf = Ok r
    /\ forall k s s', nth_error l k = Some s -> nth_error r k = Some s' -> coef (s_vorticity_spectral T s) 0 <> RtoC 0 -> s_pvs s' <> s_pvs s.
Proof.
  intros T res rs om nt g tf l Hg EX NE OG EV NT.
  destruct (round_wind T res rs om nt g tf l Hg EX NE OG EV NT) as (ds & r & A & B & C). exists ds, r. split; [exact A|]. split; [exact B|].
  intros k s s' H1 H2 M. assert (I : In s l) by (eapply nth_error_In; eauto). rewrite Forall_forall in OG. specialize (OG s I).
  assert (R : rebuilt T (respaced g) (KWind (s_u T) (s_v T)) s = Ok s').
  { clear - C H1 H2. revert k H1 H2. induction C as [|a b l r E C IH]; intros [|k] H1 H2; cbn in H1, H2; try easy; [|now apply (IH k)]. congruence. }
  rewrite rebuilt_respaced in R. cbn [rebuilt] in R.
  destruct (state_from_wind T g (s_time s) (s_u T s) (s_v T s)) as [x|] eqn:E; [|easy]. cbn [bind] in R. apply Ok_inj in R. subst s'. cbn [s_pvs].
  exact (from_wind_mean T g EX s (s_time s) x OG M E).
Qed.
Print Assumptions C61_mean_vorticity_refuted.
(** and no grid with an odd number of longitudes (up to 50000) passes the checks. *)
Theorem C61_odd_longitudes_refuted : forall T res rs om nt g tf l, mk_grid res rs om nt = Ok g ->
  l <> [] -> Forall (fun s => s_grid s = g /\ shaped (g_nlat g) (g_nlon g) (s_u T s) /\ shaped (g_nlat g) (g_nlon g) (s_v T s)) l ->
  Nat.even (g_nlon g) = false -> INR (g_nlon g) <= 50000 ->
  exists ds, as_dataset (map XState l) [("u", get_u T); ("v", get_v T)] "time" None = Ok ds
    /\ from_dataset T ds [] rs om nt tf = Err AssertionError.
Proof.
  intros T res rs om nt g tf l Hg NE OG OD SM. eexists. split; [apply (wind_export T res rs om nt g l Hg NE OG)|].
  eapply odd_longitudes; eauto.
Qed.
Print Assumptions C61_odd_longitudes_refuted.
(** An empty list does not survive. *)
Theorem C61_empty_refuted : forall T fields cd attr rs om nt tf, exists ds, as_dataset [] fields cd attr = Ok ds
  /\ from_dataset T ds [] rs om nt tf = Err ValueError.
Proof. intros. eexists. split; reflexivity. Qed.
Print Assumptions C61_empty_refuted.

Example C61_nonvacuous :
  mk_grid 90 1 1 (Some 1%Z) = Ok (d1_grid 1 1) /\ exact_on d1_family (d1_grid 1 1)
  /\ two_states <> [] /\ Forall (on_grid d1_family (d1_grid 1 1)) two_states /\ Nat.even (g_nlon (d1_grid 1 1)) = true
  /\ NoDup (map s_time two_states) /\ Forall (fun s => coef (s_vorticity_spectral d1_family s) 0 = RtoC 0) two_states
  /\ 90 * INR (g_nlon (d1_grid 1 1)) = 360.
Proof.
  split; [apply d1_grid_ok; lra|]. split; [apply d1_exact; lra|]. split; [easy|]. split; [|split; [easy|split; [|split]]].
  - constructor; [apply example_on_grid|]. constructor; [|constructor].
    split; [reflexivity|]. split; [reflexivity|]. unfold resolved. cbn -[Rmult Rplus Rdiv Ropp Rminus].
    unfold d1_analysis, row_mean, row_cos, row_sin. unfold mget. cbn -[Rmult Rplus Rdiv Ropp Rminus].
    unfold RtoC, Ci. list3; apply pair_eqC; cbn; try field; lra.
  - cbn. constructor; [|constructor; [easy|constructor]]. intros [E|[]]. assert (Q : 600 = 0) by congruence. lra.
  - constructor; [apply example_vort|]. constructor; [|constructor].
    pose proof example_vort as E. unfold s_vorticity_spectral in *. rewrite coef_ssub in * by (cbn; auto; lia). exact E.
  - cbn. lra.
Qed.
(** 51 longitudes from a resolution of 7 degrees, windless states on it *)
Example C61_odd_nonvacuous : exists g T (s : state numR), mk_grid 7 1 1 None = Ok g /\ Nat.even (g_nlon g) = false /\ INR (g_nlon g) <= 50000
  /\ s_grid s = g /\ shaped (g_nlat g) (g_nlon g) (s_u T s) /\ shaped (g_nlat g) (g_nlon g) (s_v T s).
Proof.
  destruct grid7 as (g & Hg & L1 & L2 & _). set (z := mat_of (g_nlat g) (g_nlon g) (fun _ _ => 0)).
  exists g, (fun _ _ _ => mkSpharm (fun _ _ => []) (fun _ => z) (fun _ _ => (z, z)) (fun _ _ _ => ([], [])) (fun _ => (z, z))), (mkState g (@VNum numR 0) []).
  split; [exact Hg|]. rewrite L1 at 1. split; [reflexivity|]. split; [rewrite L1, INR_IZR_INZ; apply IZR_le; lia|].
  split; [reflexivity|]. split; apply shaped_mat_of.
Qed.
(** two members of an ensemble at the same time *)
Example C61_times_nonvacuous : ~ NoDup (map s_time [example_state; example_state]).
Proof. cbn. intros H. inversion H as [|? ? N _]. apply N. now left. Qed.
