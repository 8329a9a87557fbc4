(** Property theorems C01-C05 (Grid construction, equality, geometry). *)
From Verif Require Import Base Model_Grid Model_Float Spec_Grid Proofs_Grid.
From Coquelicot Require Import Coquelicot.
From Coq Require Import Lia Lra.

(** C01 *)
Theorem C01_grid_coordinates : forall res rs om nt g, mk_grid res rs om nt = Ok g ->
  (exists d, 0 < d /\ progression 90 (- d) (g_nlat g) (g_lat g)
             /\ nth (g_nlat g - 1) (g_lat g) 0 = -90)
  /\ (exists d, 0 < d /\ progression 0 d (g_nlon g) (g_lon g)
             /\ 0 + INR (g_nlon g) * d = 360).
Proof. exact grid_coords. Qed.
Print Assumptions C01_grid_coordinates.

(** The numbers of points are the floors of 360/res and 180/res (+ 1). *)
Theorem C01_grid_shape : forall res rs om nt g, mk_grid res rs om nt = Ok g ->
  INR (g_nlon g) * res <= 360 < (INR (g_nlon g) + 1) * res
  /\ INR (g_nlat g - 1) * res <= 180 < (INR (g_nlat g - 1) + 1) * res.
Proof. exact grid_shape_floor. Qed.
Print Assumptions C01_grid_shape.

Example C01_nonvacuous : exists g, mk_grid 10 6371200 (7292 / 100000000) None = Ok g
  /\ g_nlon g = 36%nat /\ g_nlat g = 19%nat.
Proof. exact grid10. Qed.

(** C02, full statement false: the nominal spacing is the requested
    resolution, the coordinates are spaced by 360/nlon and 180/(nlat-1). *)
Theorem C02_nominal_spacing_refuted :
  exists res rs om g i, mk_grid res rs om None = Ok g
    /\ (S i < g_nlat g)%nat /\ (S i < g_nlon g)%nat
    /\ nth (S i) (g_lon g) 0 - nth i (g_lon g) 0 <> g_dlon g
    /\ nth (S i) (g_lat g) 0 - nth i (g_lat g) 0 <> g_dlat g.
Proof. exact nominal_spacing_refuted_lemma. Qed.
Print Assumptions C02_nominal_spacing_refuted.

(** C02, exact range of validity. *)
Theorem C02_nominal_spacing_partial : forall res rs om nt g, mk_grid res rs om nt = Ok g ->
  ((forall i, (S i < g_nlon g)%nat -> nth (S i) (g_lon g) 0 - nth i (g_lon g) 0 = g_dlon g)
   <-> is_integer (360 / res))
  /\ ((forall i, (S i < g_nlat g)%nat -> nth (S i) (g_lat g) 0 - nth i (g_lat g) 0 = g_dlat g)
   <-> is_integer (180 / res))
  /\ ((forall i, (S i < g_nlon g)%nat -> nth (S i) (g_lam g) 0 - nth i (g_lam g) 0 = g_dlam g)
   <-> is_integer (360 / res))
  /\ ((forall i, (S i < g_nlat g)%nat -> nth (S i) (g_phi g) 0 - nth i (g_phi g) 0 = g_dphi g)
   <-> is_integer (180 / res)).
Proof. exact nominal_spacing. Qed.
Print Assumptions C02_nominal_spacing_partial.

Example C02_nonvacuous : (exists g, mk_grid 10 6371200 (7292 / 100000000) None = Ok g)
  /\ is_integer (360 / 10) /\ is_integer (180 / 10) /\ ~ is_integer (180 / 7).
Proof.
  split; [destruct grid10 as [g [H _]]; now exists g|].
  split; [exists 36%Z; lra|]. split; [exists 18%Z; lra|]. exact not_int_180_7.
Qed.

(** C03 in exact arithmetic *)
Theorem C03_shape_from_intervals_partial : forall n rs om, (2 <= n)%nat -> 0 < rs ->
  exists g, mk_grid (180 / INR n) rs om None = Ok g
            /\ g_nlat g = (n + 1)%nat /\ g_nlon g = (2 * n)%nat.
Proof. exact grid_180_over_n. Qed.
Print Assumptions C03_shape_from_intervals_partial.

(** C03 in binary64 arithmetic: Grid(180/169) has 169 latitudes and 337
    longitudes instead of 170 and 338. *)
Theorem C03_shape_from_intervals_binary64_refuted :
  exists n : Z, (2 <= n)%Z
    /\ nlat_b64 (resolution_180 n) = Some n /\ nlon_b64 (resolution_180 n) = Some (2 * n - 1)%Z.
Proof. exists 169%Z. split; [lia|]. split; vm_compute; reflexivity. Qed.
Print Assumptions C03_shape_from_intervals_binary64_refuted.

Example C03_nonvacuous : nlat_b64 (resolution_180 18) = Some 19%Z
  /\ nlon_b64 (resolution_180 18) = Some 36%Z.
Proof. split; vm_compute; reflexivity. Qed.

(** C04: what holds ... *)
Theorem C04_grid_equality_partial :
  (forall g, grid_eqb g g = true)
  /\ (forall a b, grid_hash_key a = grid_hash_key b -> grid_eqb a b = true)
  /\ (forall a b, grid_eqb a b = true ->
        g_shape a = g_shape b /\ g_ntrunc a = g_ntrunc b
        /\ Rabs (g_rsphere a - g_rsphere b) <= / 100000000 + / 100000 * Rabs (g_rsphere b)
        /\ Rabs (g_omega a - g_omega b) <= / 100000000 + / 100000 * Rabs (g_omega b)).
Proof. exact grid_equality_facts. Qed.
Print Assumptions C04_grid_equality_partial.

(** ... and what does not. *)
Theorem C04_grid_equality_symmetric_refuted :
  exists a b, (exists ra oa, mk_grid 90 ra oa None = Ok a) /\ (exists rb ob, mk_grid 90 rb ob None = Ok b)
  /\ grid_eqb a b = true /\ grid_eqb b a = false.
Proof. exact grid_eq_not_symmetric. Qed.
Print Assumptions C04_grid_equality_symmetric_refuted.
Theorem C04_grid_equality_transitive_refuted :
  exists a b c, (exists ra oa, mk_grid 90 ra oa None = Ok a) /\ (exists rb ob, mk_grid 90 rb ob None = Ok b)
  /\ (exists rc oc, mk_grid 90 rc oc None = Ok c)
  /\ grid_eqb a b = true /\ grid_eqb b c = true /\ grid_eqb a c = false.
Proof. exact grid_eq_not_transitive. Qed.
Print Assumptions C04_grid_equality_transitive_refuted.
Theorem C04_grid_hash_refuted :
  exists a b, (exists ra oa, mk_grid 90 ra oa None = Ok a) /\ (exists rb ob, mk_grid 90 rb ob None = Ok b)
  /\ grid_eqb a b = true /\ grid_hash_key a <> grid_hash_key b.
Proof. exact grid_hash_inconsistent. Qed.
Print Assumptions C04_grid_hash_refuted.

(** C05 *)
Theorem C05_coriolis : forall g,
  (forall lat, coriolis g (- lat) = - coriolis g lat)
  /\ (0 < g_omega g -> forall a b, -90 <= a -> a < b -> b <= 90 -> coriolis g a < coriolis g b)
  /\ (forall i, (i < g_nlat g)%nat -> nth i (g_fcor g) 0 = coriolis g (nth i (g_lat g) 0))
  /\ (forall i j, (i < g_nlat g)%nat -> (j < g_nlon g)%nat ->
        mget (g_fcor2 g) i j = coriolis g (nth i (g_lat g) 0)).
Proof. exact coriolis_facts. Qed.
Print Assumptions C05_coriolis.

Theorem C05_circumference : forall res rs om nt g, mk_grid res rs om nt = Ok g ->
  (forall lat, -90 < lat < 90 -> 0 < circumference g lat)
  /\ circumference g 90 = 0 /\ circumference g (-90) = 0
  /\ (forall lat, -90 <= lat <= 90 ->
        is_RInt (fun x => circumference g (rad2deg x) * g_rsphere g) (deg2rad lat) (PI / 2)
          (cap_area rs (deg2rad lat)))
  /\ (forall lat, cap_area rs (deg2rad lat) = 2 * PI * rs * rs * (1 - sin (deg2rad lat))).
Proof. exact circumference_facts. Qed.
Print Assumptions C05_circumference.

Example C05_nonvacuous : exists g, mk_grid 10 6371200 (7292 / 100000000) None = Ok g
  /\ 0 < g_omega g.
Proof.
  destruct grid10 as [g [H _]]. exists g. split; auto.
  rewrite (gf_om _ _ _ _ (mk_grid_facts _ _ _ _ _ H)). lra.
Qed.
