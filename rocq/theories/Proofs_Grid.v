From Verif Require Import Base Model_Grid Spec_Grid Proofs_Base.
From Coq Require Import Lia Lra Psatz.
From Coquelicot Require Import Coquelicot.

(** What the constructor guarantees. *)
Record grid_facts (res rs om : R) (g : grid) : Prop := {
  gf_res : g_res g = res;
  gf_rs : g_rsphere g = rs;
  gf_om : g_omega g = om;
  gf_rs_pos : 0 < rs;
  gf_res_pos : 0 < res;
  gf_nlon4 : (4 <= g_nlon g)%nat;
  gf_nlat3 : (3 <= g_nlat g)%nat;
  gf_nlon_lo : INR (g_nlon g) <= 360 / res;
  gf_nlon_hi : 360 / res < INR (g_nlon g) + 1;
  gf_nlat_lo : INR (g_nlat g - 1) <= 180 / res;
  gf_nlat_hi : 180 / res < INR (g_nlat g - 1) + 1;
  gf_ntrunc : (g_ntrunc g <= g_nlat g - 1)%nat
}.

Lemma py_int_pos_inv x k : (0 < k)%Z -> (k <= py_int x)%Z ->
  0 < x /\ IZR (py_int x) <= x < IZR (py_int x) + 1.
Proof.
  intros Hk H. unfold py_int in *. destruct (Rle_dec 0 x) as [Hx|Hx].
  - pose proof (Int_part_spec x). apply IZR_le in H. apply IZR_lt in Hk. lra.
  - exfalso. pose proof (Int_part_spec (- x)) as [H1 H2].
    assert (IZR (Int_part (- x)) <= -1).
    { replace (-1) with (IZR (-1)) by reflexivity. apply IZR_le. lia. }
    lra.
Qed.

Lemma mk_grid_facts res rs om nt g : mk_grid res rs om nt = Ok g -> grid_facts res rs om g.
Proof.
  unfold mk_grid. destruct (Req_EM_T res 0) as [|Hres]; [discriminate|].
  destruct ((nlon_of res <? 0)%Z || (nlat_of res <? 0)%Z); [discriminate|].
  destruct (Rltb 0 rs) eqn:Ers; [|discriminate]. apply Rltb_true in Ers. simpl negb. cbv iota.
  destruct ((nlon_of res <=? 3)%Z || (nlat_of res <=? 2)%Z) eqn:E; [discriminate|].
  apply orb_false_iff in E. destruct E as [E1 E2]. apply Z.leb_gt in E1. apply Z.leb_gt in E2.
  set (t := match nt with None => _ | Some _ => _ end).
  destruct ((t <? 0)%Z || (nlat_of res - 1 <? t)%Z) eqn:Et; [discriminate|].
  apply orb_false_iff in Et. destruct Et as [Et1 Et2]. apply Z.ltb_ge in Et1. apply Z.ltb_ge in Et2.
  intros H; injection H as <-. unfold nlat_of, nlon_of in *.
  destruct (py_int_pos_inv (360 / res) 4) as [Hp1 [Hlo1 Hhi1]]; [lia|lia|].
  destruct (py_int_pos_inv (180 / res) 2) as [Hp2 [Hlo2 Hhi2]]; [lia|lia|].
  assert (Hrp : 0 < res).
  { destruct (Rlt_le_dec 0 res); auto. exfalso.
    assert (360 / res < 0); [|lra]. unfold Rdiv.
    assert (/ res < 0) by (apply Rinv_lt_0_compat; lra). nra. }
  constructor; cbn [g_res g_rsphere g_omega g_nlon g_nlat g_ntrunc]; auto.
  - apply (Z2Nat.inj_le 4); lia.
  - apply (Z2Nat.inj_le 3); lia.
  - rewrite INR_IZR_INZ, Z2Nat.id by lia. lra.
  - rewrite INR_IZR_INZ, Z2Nat.id by lia. lra.
  - rewrite INR_IZR_INZ, Nat2Z.inj_sub, Z2Nat.id by lia. simpl Z.of_nat.
    replace (py_int (180 / res) + 1 - 1)%Z with (py_int (180 / res)) by ring. lra.
  - rewrite INR_IZR_INZ, Nat2Z.inj_sub, Z2Nat.id by lia. simpl Z.of_nat.
    replace (py_int (180 / res) + 1 - 1)%Z with (py_int (180 / res)) by ring. lra.
  - lia.
Qed.

Lemma lat_nth g i : (i < g_nlat g)%nat ->
  nth i (g_lat g) 0 = 90 + INR i * (-180 / INR (g_nlat g - 1)).
Proof.
  intros H. unfold g_lat, linspace_end. rewrite tab_nth by auto.
  replace (-90 - 90) with (-180) by ring. reflexivity.
Qed.
Lemma lon_nth g i : (i < g_nlon g)%nat -> nth i (g_lon g) 0 = INR i * (360 / INR (g_nlon g)).
Proof.
  intros H. unfold g_lon, linspace_noend. rewrite tab_nth by auto.
  replace (360 - 0) with 360 by ring. ring.
Qed.
Lemma lat_length g : length (g_lat g) = g_nlat g.
Proof. apply tab_length. Qed.
Lemma lon_length g : length (g_lon g) = g_nlon g.
Proof. apply tab_length. Qed.

Lemma grid_coords res rs om nt g : mk_grid res rs om nt = Ok g ->
  (exists d, 0 < d /\ progression 90 (- d) (g_nlat g) (g_lat g)
             /\ nth (g_nlat g - 1) (g_lat g) 0 = -90)
  /\ (exists d, 0 < d /\ progression 0 d (g_nlon g) (g_lon g)
             /\ 0 + INR (g_nlon g) * d = 360).
Proof.
  intros H. apply mk_grid_facts in H. destruct H.
  assert (2 <= INR (g_nlat g - 1)).
  { replace 2 with (INR 2) by reflexivity. apply le_INR. lia. }
  assert (4 <= INR (g_nlon g)).
  { replace 4 with (INR 4) by (simpl; ring). apply le_INR. lia. }
  split.
  - exists (180 / INR (g_nlat g - 1)). split; [|split].
    + apply Rdiv_lt_0_compat; lra.
    + split; [apply lat_length|]. intros i Hi. rewrite lat_nth by auto. field. lra.
    + rewrite lat_nth by lia. field. lra.
  - exists (360 / INR (g_nlon g)). split; [|split].
    + apply Rdiv_lt_0_compat; lra.
    + split; [apply lon_length|]. intros i Hi. rewrite lon_nth by auto. ring.
    + field. lra.
Qed.

(** Number of points and the requested resolution. *)
Lemma grid_shape_floor res rs om nt g : mk_grid res rs om nt = Ok g ->
  INR (g_nlon g) * res <= 360 < (INR (g_nlon g) + 1) * res
  /\ INR (g_nlat g - 1) * res <= 180 < (INR (g_nlat g - 1) + 1) * res.
Proof.
  intros H. apply mk_grid_facts in H. destruct H.
  assert (E1 : 360 / res * res = 360) by (field; lra).
  assert (E2 : 180 / res * res = 180) by (field; lra).
  split; split.
  - rewrite <- E1. apply Rmult_le_compat_r; lra.
  - rewrite <- E1. apply Rmult_lt_compat_r; lra.
  - rewrite <- E2. apply Rmult_le_compat_r; lra.
  - rewrite <- E2. apply Rmult_lt_compat_r; lra.
Qed.

Lemma integer_floor x n : INR n <= x < INR n + 1 -> is_integer x -> x = INR n.
Proof.
  intros [H1 H2] [k ->]. rewrite INR_IZR_INZ in *.
  replace (IZR (Z.of_nat n) + 1) with (IZR (Z.of_nat n + 1)) in H2 by (now rewrite plus_IZR).
  apply le_IZR in H1. apply lt_IZR in H2. f_equal. lia.
Qed.

Lemma spacing_lon res rs om nt g : mk_grid res rs om nt = Ok g ->
  ((forall i, (S i < g_nlon g)%nat -> nth (S i) (g_lon g) 0 - nth i (g_lon g) 0 = g_dlon g)
   <-> is_integer (360 / res)).
Proof.
  intros H. apply mk_grid_facts in H. destruct H.
  assert (Hn : 4 <= INR (g_nlon g)).
  { replace 4 with (INR 4) by (simpl; ring). apply le_INR. lia. }
  unfold g_dlon. rewrite gf_res0. split.
  - intros Hs. specialize (Hs 0%nat). rewrite !lon_nth in Hs by lia.
    assert (Hs' : 360 / INR (g_nlon g) = res).
    { rewrite <- Hs by lia. simpl INR. field. lra. }
    exists (Z.of_nat (g_nlon g)). rewrite <- INR_IZR_INZ. rewrite <- Hs'. field. lra.
  - intros Hi i Hlt. rewrite !lon_nth by lia. rewrite S_INR.
    rewrite <- (integer_floor _ _ (conj gf_nlon_lo0 gf_nlon_hi0) Hi). field.
    assert (0 < 360 / res) by (apply Rdiv_lt_0_compat; lra). repeat split; lra.
Qed.

Lemma spacing_lat res rs om nt g : mk_grid res rs om nt = Ok g ->
  ((forall i, (S i < g_nlat g)%nat -> nth (S i) (g_lat g) 0 - nth i (g_lat g) 0 = g_dlat g)
   <-> is_integer (180 / res)).
Proof.
  intros H. apply mk_grid_facts in H. destruct H.
  assert (Hn : 2 <= INR (g_nlat g - 1)).
  { replace 2 with (INR 2) by (simpl; ring). apply le_INR. lia. }
  unfold g_dlat. rewrite gf_res0. split.
  - intros Hs. specialize (Hs 0%nat). rewrite !lat_nth in Hs by lia.
    assert (Hs' : 180 / INR (g_nlat g - 1) = res).
    { assert (- (180 / INR (g_nlat g - 1)) = - res); [|lra].
      rewrite <- Hs by lia. simpl INR. field. lra. }
    exists (Z.of_nat (g_nlat g - 1)). rewrite <- INR_IZR_INZ. rewrite <- Hs'. field. lra.
  - intros Hi i Hlt. rewrite !lat_nth by lia. rewrite S_INR.
    rewrite <- (integer_floor _ _ (conj gf_nlat_lo0 gf_nlat_hi0) Hi). field.
    assert (0 < 180 / res) by (apply Rdiv_lt_0_compat; lra). repeat split; lra.
Qed.

(** A grid with a given integer number of intervals per 180 degrees. *)
Lemma mk_grid_Ok res rs om nlon nlat :
  0 < res -> 0 < rs ->
  IZR nlon <= 360 / res < IZR nlon + 1 -> IZR nlat <= 180 / res < IZR nlat + 1 ->
  (4 <= nlon)%Z -> (2 <= nlat)%Z ->
  mk_grid res rs om None =
  Ok {| g_res := res; g_rsphere := rs; g_omega := om; g_nlon := Z.to_nat nlon;
        g_nlat := Z.to_nat (nlat + 1); g_ntrunc := Z.to_nat nlat |}.
Proof.
  intros Hres Hrs H1 H2 H3 H4. unfold mk_grid.
  assert (E1 : nlon_of res = nlon).
  { unfold nlon_of. rewrite py_int_nonneg; [now apply Int_part_unique|].
    apply IZR_le in H3. lra. }
  assert (E2 : nlat_of res = (nlat + 1)%Z).
  { unfold nlat_of. rewrite py_int_nonneg; [now rewrite (Int_part_unique _ nlat)|].
    apply IZR_le in H4. lra. }
  destruct (Req_EM_T res 0); [lra|]. rewrite E1, E2.
  replace (Rltb 0 rs) with true by (symmetry; now apply Rltb_true).
  replace ((nlon <? 0)%Z || (nlat + 1 <? 0)%Z) with false.
  2:{ symmetry; apply orb_false_iff; split; apply Z.ltb_ge; lia. }
  replace ((nlon <=? 3)%Z || (nlat + 1 <=? 2)%Z) with false.
  2:{ symmetry; apply orb_false_iff; split; apply Z.leb_gt; lia. }
  replace ((nlat + 1 - 1 <? 0)%Z || (nlat + 1 - 1 <? nlat + 1 - 1)%Z) with false.
  2:{ symmetry; apply orb_false_iff; split; apply Z.ltb_ge; lia. }
  simpl. now replace (nlat + 1 - 1)%Z with nlat by ring.
Qed.

Lemma grid_180_over_n n rs om : (2 <= n)%nat -> 0 < rs ->
  exists g, mk_grid (180 / INR n) rs om None = Ok g
            /\ g_nlat g = (n + 1)%nat /\ g_nlon g = (2 * n)%nat.
Proof.
  intros Hn Hrs.
  assert (Hn' : 2 <= INR n) by (replace 2 with (INR 2) by reflexivity; now apply le_INR).
  eexists. split.
  - apply (mk_grid_Ok _ _ _ (Z.of_nat (2 * n)) (Z.of_nat n)); auto; try lia.
    + apply Rdiv_lt_0_compat; lra.
    + rewrite <- INR_IZR_INZ, mult_INR. simpl (INR 2).
      replace (360 / (180 / INR n)) with (2 * INR n) by (field; lra). lra.
    + rewrite <- INR_IZR_INZ. replace (180 / (180 / INR n)) with (INR n) by (field; lra). lra.
  - cbn [g_nlat g_nlon]. split; lia.
Qed.

(** the 7-degree grid: accepted, but 180/7 and 360/7 are not integers *)
Lemma grid7 : exists g, mk_grid 7 1 1 None = Ok g /\ g_nlon g = 51%nat /\ g_nlat g = 26%nat
  /\ g_rsphere g = 1 /\ g_res g = 7.
Proof.
  eexists. split; [apply (mk_grid_Ok 7 1 1 51 25); try lra; lia|].
  cbn. repeat split.
Qed.

(** the Earth-like 10-degree grid used as a concrete example *)
Lemma grid10 : exists g, mk_grid 10 6371200 (7292 / 100000000) None = Ok g
  /\ g_nlon g = 36%nat /\ g_nlat g = 19%nat.
Proof.
  eexists. split; [apply (mk_grid_Ok 10 6371200 (7292 / 100000000) 36 18); try lra; lia|].
  cbn. repeat split.
Qed.

Lemma not_int_180_7 : ~ is_integer (180 / 7).
Proof.
  intros [k Hk].
  assert (IZR 25 < IZR k) by lra. assert (IZR k < IZR 26) by lra.
  apply lt_IZR in H. apply lt_IZR in H0. lia.
Qed.
Lemma not_int_360_7 : ~ is_integer (360 / 7).
Proof.
  intros [k Hk].
  assert (IZR 51 < IZR k) by lra. assert (IZR k < IZR 52) by lra.
  apply lt_IZR in H. apply lt_IZR in H0. lia.
Qed.

Lemma nominal_spacing_refuted_lemma :
  exists res rs om g i, mk_grid res rs om None = Ok g
    /\ (S i < g_nlat g)%nat /\ (S i < g_nlon g)%nat
    /\ nth (S i) (g_lon g) 0 - nth i (g_lon g) 0 <> g_dlon g
    /\ nth (S i) (g_lat g) 0 - nth i (g_lat g) 0 <> g_dlat g.
Proof.
  destruct grid7 as [g [Hg [H1 [H2 [H3 H4]]]]].
  exists 7, 1, 1, g, 0%nat. repeat split; auto; try lia.
  - rewrite !lon_nth by lia. unfold g_dlon. rewrite H4, H1. simpl INR. lra.
  - rewrite !lat_nth by lia. unfold g_dlat. rewrite H4, H2. simpl INR. lra.
Qed.

(** ** Equality and hash (C04) *)
Definition gridA (rs : R) : grid :=
  {| g_res := 90; g_rsphere := rs; g_omega := 0; g_nlon := 4; g_nlat := 3; g_ntrunc := 2 |}.
Lemma gridA_ok rs : 0 < rs -> mk_grid 90 rs 0 None = Ok (gridA rs).
Proof. intros H. apply (mk_grid_Ok 90 rs 0 4 2); try lra; lia. Qed.

Lemma gridA_eqb a b : grid_eqb (gridA a) (gridA b) = isclose a b.
Proof.
  unfold grid_eqb; simpl. rewrite (isclose_refl 0). now rewrite !andb_true_r.
Qed.

Lemma grid_eqb_refl g : grid_eqb g g = true.
Proof. unfold grid_eqb. now rewrite !Nat.eqb_refl, !isclose_refl. Qed.

Lemma isclose_pos a b : 0 < b -> a <= b ->
  (isclose a b = true <-> b - a <= / 100000000 + / 100000 * b).
Proof.
  intros Hb H. rewrite isclose_true, (Rabs_minus_sym a b).
  rewrite (Rabs_pos_eq (b - a)) by lra. rewrite (Rabs_pos_eq b) by lra. tauto.
Qed.
Lemma isclose_pos' a b : 0 < b -> b <= a ->
  (isclose a b = true <-> a - b <= / 100000000 + / 100000 * b).
Proof.
  intros Hb H. rewrite isclose_true.
  rewrite (Rabs_pos_eq (a - b)) by lra. rewrite (Rabs_pos_eq b) by lra. tauto.
Qed.

Lemma grid_eq_not_symmetric :
  exists a b, (exists ra oa, mk_grid 90 ra oa None = Ok a) /\ (exists rb ob, mk_grid 90 rb ob None = Ok b)
  /\ grid_eqb a b = true /\ grid_eqb b a = false.
Proof.
  set (d := / 100000000 + / 100000 + / 100000000000).
  exists (gridA 1), (gridA (1 + d)). split; [exists 1, 0; apply gridA_ok; lra|].
  split; [exists (1 + d), 0; apply gridA_ok; unfold d; lra|].
  rewrite !gridA_eqb. split.
  - apply isclose_pos; unfold d; lra.
  - apply not_true_is_false. rewrite isclose_pos' by (unfold d; lra). unfold d. lra.
Qed.

Lemma grid_eq_not_transitive :
  exists a b c, (exists ra oa, mk_grid 90 ra oa None = Ok a) /\ (exists rb ob, mk_grid 90 rb ob None = Ok b)
  /\ (exists rc oc, mk_grid 90 rc oc None = Ok c)
  /\ grid_eqb a b = true /\ grid_eqb b c = true /\ grid_eqb a c = false.
Proof.
  exists (gridA 1), (gridA (1 + / 100000)), (gridA (1 + 2 / 100000)).
  split; [exists 1, 0; apply gridA_ok; lra|].
  split; [exists (1 + / 100000), 0; apply gridA_ok; lra|].
  split; [exists (1 + 2 / 100000), 0; apply gridA_ok; lra|].
  rewrite !gridA_eqb. split; [|split].
  - apply isclose_pos; lra.
  - apply isclose_pos; lra.
  - apply not_true_is_false. rewrite isclose_pos by lra. lra.
Qed.

Lemma grid_hash_inconsistent :
  exists a b, (exists ra oa, mk_grid 90 ra oa None = Ok a) /\ (exists rb ob, mk_grid 90 rb ob None = Ok b)
  /\ grid_eqb a b = true /\ grid_hash_key a <> grid_hash_key b.
Proof.
  exists (gridA 1), (gridA (1 + / 1000000)).
  split; [exists 1, 0; apply gridA_ok; lra|].
  split; [exists (1 + / 1000000), 0; apply gridA_ok; lra|].
  rewrite !gridA_eqb. split.
  - apply isclose_pos; lra.
  - unfold grid_hash_key, g_shape; simpl. intros H. injection H. lra.
Qed.

Lemma grid_same_key_equal a b : grid_hash_key a = grid_hash_key b -> grid_eqb a b = true.
Proof.
  unfold grid_hash_key, g_shape, grid_eqb. intros H. injection H as H1 H2 H3 H4 H5.
  rewrite H1, H2, H3, H4, H5. now rewrite !Nat.eqb_refl, !isclose_refl.
Qed.
Lemma grid_eqb_shape a b : grid_eqb a b = true ->
  g_shape a = g_shape b /\ g_ntrunc a = g_ntrunc b
  /\ isclose (g_rsphere a) (g_rsphere b) = true /\ isclose (g_omega a) (g_omega b) = true.
Proof.
  unfold grid_eqb, g_shape. rewrite !andb_true_iff, !Nat.eqb_eq.
  intros [[[[-> ->] ?] ?] ->]. auto.
Qed.

(** ** Planetary geometry (C05) *)
Lemma coriolis_odd g lat : coriolis g (- lat) = - coriolis g lat.
Proof. unfold coriolis. rewrite deg2rad_opp, sin_neg. ring. Qed.

Lemma deg2rad_range lat : -90 <= lat <= 90 -> - (PI / 2) <= deg2rad lat <= PI / 2.
Proof.
  intros [H1 H2]. split; [rewrite <- deg2rad_m90|rewrite <- deg2rad_90]; apply (proj1 (deg2rad_le _ _)); lra.
Qed.

Lemma coriolis_incr g a b : 0 < g_omega g -> -90 <= a -> a < b -> b <= 90 ->
  coriolis g a < coriolis g b.
Proof.
  intros Ho Ha Hab Hb. unfold coriolis. apply Rmult_lt_compat_l; [lra|].
  pose proof (deg2rad_range a). pose proof (deg2rad_range b).
  apply sin_increasing_1; try lra. apply (proj1 (deg2rad_lt _ _)); lra.
Qed.

Lemma circumference_pos g lat : 0 < g_rsphere g -> -90 < lat < 90 -> 0 < circumference g lat.
Proof.
  intros Hr H. unfold circumference. pose proof PI_RGT_0.
  assert (0 < cos (deg2rad lat)).
  { apply cos_gt_0; [rewrite <- deg2rad_m90|rewrite <- deg2rad_90]; apply (proj1 (deg2rad_lt _ _)); lra. }
  apply Rmult_lt_0_compat; [|auto]. apply Rmult_lt_0_compat; lra.
Qed.
Lemma circumference_poles g : circumference g 90 = 0 /\ circumference g (-90) = 0.
Proof.
  unfold circumference. rewrite deg2rad_90, deg2rad_m90, cos_neg, cos_PI2. split; ring.
Qed.

Lemma is_RInt_extR (f g : R -> R) a b l : (forall x, f x = g x) ->
  is_RInt f a b l -> is_RInt g a b l.
Proof. intros H. apply is_RInt_ext. intros x _. apply H. Qed.
Lemma is_RInt_cos_scal c a b : is_RInt (fun x => c * cos x) a b (c * (sin b - sin a)).
Proof.
  replace (c * (sin b - sin a)) with (minus (c * sin b) (c * sin a)).
  2:{ unfold minus, plus, opp; simpl. ring. }
  apply (is_RInt_derive (fun x => c * sin x)).
  - intros x _. auto_derive; auto. ring.
  - intros x _. apply (ex_derive_continuous (fun x => c * cos x)). auto_derive; auto.
Qed.

Lemma cap_area_formula r phi : cap_area r phi = 2 * PI * r * r * (1 - sin phi).
Proof.
  unfold cap_area. apply is_RInt_unique.
  apply (is_RInt_extR (fun x => (2 * PI * r * r) * cos x)).
  - intros x. ring.
  - rewrite <- sin_PI2 at 1. apply is_RInt_cos_scal.
Qed.

Lemma circumference_integral g lat : -90 <= lat <= 90 ->
  is_RInt (fun x => circumference g (rad2deg x) * g_rsphere g) (deg2rad lat) (PI / 2)
          (cap_area (g_rsphere g) (deg2rad lat)).
Proof.
  intros H. rewrite cap_area_formula.
  apply (is_RInt_extR (fun x => (2 * PI * g_rsphere g * g_rsphere g) * cos x)).
  - intros x. unfold circumference. rewrite deg2rad_rad2deg. ring.
  - rewrite <- sin_PI2 at 1. apply is_RInt_cos_scal.
Qed.

Lemma fcor_grid g i : (i < g_nlat g)%nat ->
  nth i (g_fcor g) 0 = coriolis g (nth i (g_lat g) 0).
Proof. intros H. unfold g_fcor. apply nth_map_lt. now rewrite lat_length. Qed.

Lemma lat2_shaped g : shaped (g_nlat g) (g_nlon g) (g_lat2 g).
Proof.
  split; [unfold g_lat2; rewrite map_length; apply lat_length|].
  unfold g_lat2. rewrite Forall_map. apply Forall_forall. intros x _. rewrite map_length. apply lon_length.
Qed.
Lemma lat2_get g i j : (i < g_nlat g)%nat -> (j < g_nlon g)%nat ->
  mget (g_lat2 g) i j = nth i (g_lat g) 0.
Proof.
  intros Hi Hj. unfold mget, g_lat2.
  rewrite (nth_map_lt _ _ _ 0) by now rewrite lat_length.
  rewrite (nth_map_lt _ _ _ 0) by now rewrite lon_length. reflexivity.
Qed.
Lemma fcor2_shaped g : shaped (g_nlat g) (g_nlon g) (g_fcor2 g).
Proof. apply shaped_mmap, lat2_shaped. Qed.
Lemma fcor2_grid g i j : (i < g_nlat g)%nat -> (j < g_nlon g)%nat ->
  mget (g_fcor2 g) i j = coriolis g (nth i (g_lat g) 0).
Proof.
  intros Hi Hj. unfold g_fcor2.
  rewrite (mget_mmap (g_nlat g) (g_nlon g)) by (auto; apply lat2_shaped).
  now rewrite lat2_get.
Qed.

Lemma lam_nth g i : (i < g_nlon g)%nat -> nth i (g_lam g) 0 = deg2rad (nth i (g_lon g) 0).
Proof. intros H. unfold g_lam. apply nth_map_lt. now rewrite lon_length. Qed.
Lemma phi_nth g i : (i < g_nlat g)%nat -> nth i (g_phi g) 0 = deg2rad (nth i (g_lat g) 0).
Proof. intros H. unfold g_phi. apply nth_map_lt. now rewrite lat_length. Qed.
Lemma lam_length g : length (g_lam g) = g_nlon g.
Proof. unfold g_lam. rewrite map_length. apply lon_length. Qed.
Lemma phi_length g : length (g_phi g) = g_nlat g.
Proof. unfold g_phi. rewrite map_length. apply lat_length. Qed.
Lemma deg2rad_minus a b : deg2rad (a - b) = deg2rad a - deg2rad b.
Proof. unfold deg2rad. field. Qed.
Lemma deg2rad_inj a b : deg2rad a = deg2rad b -> a = b.
Proof. intros H. rewrite <- (rad2deg_deg2rad a), H. apply rad2deg_deg2rad. Qed.

Lemma nominal_spacing res rs om nt g : mk_grid res rs om nt = Ok g ->
  ((forall i, (S i < g_nlon g)%nat -> nth (S i) (g_lon g) 0 - nth i (g_lon g) 0 = g_dlon g)
   <-> is_integer (360 / res))
  /\ ((forall i, (S i < g_nlat g)%nat -> nth (S i) (g_lat g) 0 - nth i (g_lat g) 0 = g_dlat g)
   <-> is_integer (180 / res))
  /\ ((forall i, (S i < g_nlon g)%nat -> nth (S i) (g_lam g) 0 - nth i (g_lam g) 0 = g_dlam g)
   <-> is_integer (360 / res))
  /\ ((forall i, (S i < g_nlat g)%nat -> nth (S i) (g_phi g) 0 - nth i (g_phi g) 0 = g_dphi g)
   <-> is_integer (180 / res)).
Proof.
  intros H. pose proof (spacing_lon _ _ _ _ _ H) as H1. pose proof (spacing_lat _ _ _ _ _ H) as H2.
  split; [exact H1|]. split; [exact H2|]. split.
  - rewrite <- H1. split; intros Hs i Hi.
    + apply deg2rad_inj. rewrite deg2rad_minus, <- !lam_nth by lia. now apply Hs.
    + rewrite !lam_nth, <- deg2rad_minus by lia. unfold g_dlam. now rewrite Hs.
  - rewrite <- H2. split; intros Hs i Hi.
    + apply deg2rad_inj. rewrite deg2rad_minus, <- !phi_nth by lia. now apply Hs.
    + rewrite !phi_nth, <- deg2rad_minus by lia. unfold g_dphi. now rewrite Hs.
Qed.

Lemma grid_equality_facts :
  (forall g, grid_eqb g g = true)
  /\ (forall a b, grid_hash_key a = grid_hash_key b -> grid_eqb a b = true)
  /\ (forall a b, grid_eqb a b = true ->
        g_shape a = g_shape b /\ g_ntrunc a = g_ntrunc b
        /\ Rabs (g_rsphere a - g_rsphere b) <= / 100000000 + / 100000 * Rabs (g_rsphere b)
        /\ Rabs (g_omega a - g_omega b) <= / 100000000 + / 100000 * Rabs (g_omega b)).
Proof.
  split; [exact grid_eqb_refl|]. split; [exact grid_same_key_equal|].
  intros a b H. apply grid_eqb_shape in H. destruct H as [H1 [H2 [H3 H4]]].
  apply isclose_true in H3. apply isclose_true in H4. auto.
Qed.

Lemma coriolis_facts : forall g,
  (forall lat, coriolis g (- lat) = - coriolis g lat)
  /\ (0 < g_omega g -> forall a b, -90 <= a -> a < b -> b <= 90 -> coriolis g a < coriolis g b)
  /\ (forall i, (i < g_nlat g)%nat -> nth i (g_fcor g) 0 = coriolis g (nth i (g_lat g) 0))
  /\ (forall i j, (i < g_nlat g)%nat -> (j < g_nlon g)%nat ->
        mget (g_fcor2 g) i j = coriolis g (nth i (g_lat g) 0)).
Proof.
  intros g. split; [apply coriolis_odd|]. split; [intros H a b; now apply coriolis_incr|].
  split; [apply fcor_grid|apply fcor2_grid].
Qed.

Lemma circumference_facts : forall res rs om nt g, mk_grid res rs om nt = Ok g ->
  (forall lat, -90 < lat < 90 -> 0 < circumference g lat)
  /\ circumference g 90 = 0 /\ circumference g (-90) = 0
  /\ (forall lat, -90 <= lat <= 90 ->
        is_RInt (fun x => circumference g (rad2deg x) * g_rsphere g) (deg2rad lat) (PI / 2)
          (cap_area rs (deg2rad lat)))
  /\ (forall lat, cap_area rs (deg2rad lat) = 2 * PI * rs * rs * (1 - sin (deg2rad lat))).
Proof.
  intros res rs om nt g H. apply mk_grid_facts in H. destruct H.
  destruct (circumference_poles g) as [P1 P2].
  split; [intros; apply circumference_pos; lra|]. split; [auto|]. split; [auto|].
  split; [|intros; apply cap_area_formula].
  intros lat Hl. subst rs. now apply circumference_integral.
Qed.
