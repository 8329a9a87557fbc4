(** C126, C127: coordinates and selections of coordinates in double precision. *)
From Coq Require Import Reals ZArith Lia Lra.
From Coq Require Export String.
From Verif Require Import Base Model_Grid Model_Float Model_FloatGrid Spec_Float Spec_FloatGrid Spec_Region Proofs_Base Proofs_Grid Proofs_Float Proofs_FloatRun Proofs_FloatGrid Model_Region.
From Coq Require Import List.
Import ListNotations.
Open Scope R_scope.

(** C126: the n + 1 latitudes of a grid in double precision go from exactly 90 to
    exactly -90, are strictly decreasing, and each differs from the exact position by
    at most 2^-44 degrees *)
Theorem C126_latitudes : forall n, (1 <= n)%nat -> (Z.of_nat n <= 2 ^ 40)%Z ->
  exists r, denote (lat_b64 (n + 1)) r /\ length r = (n + 1)%nat
    /\ (forall i, (i <= n)%nat -> Rabs (nth i r 0 - latitude n i) <= / 2 ^ 44)
    /\ nth 0 r 0 = 90 /\ nth n r 0 = -90 /\ strictly_decreasing r /\ (forall y, In y r -> -90 <= y <= 90).
Proof.
  intros n Hn Hb. exists (tab (n + 1) (fl_lat n)).
  assert (D : strictly_decreasing (tab (n + 1) (fl_lat n))).
  { intros i j Hij Hj. rewrite tab_length in Hj. rewrite !tab_nth by lia. apply lat_decr; auto; lia. }
  split; [rewrite Nat.add_1_r; now apply lat_denotes|]. split; [apply tab_length|].
  split; [intros i Hi; rewrite tab_nth by lia; now apply lat_error|].
  assert (E0 : nth 0 (tab (n + 1) (fl_lat n)) 0 = 90) by (rewrite tab_nth by lia; now apply lat_first).
  assert (E1 : nth n (tab (n + 1) (fl_lat n)) 0 = -90) by (rewrite tab_nth by lia; apply lat_last).
  split; [exact E0|]. split; [exact E1|]. split; [exact D|]. intros y Hy. apply (In_nth _ _ 0) in Hy. destruct Hy as (i & Hi & <-). rewrite tab_length in Hi.
  split.
  - destruct (Nat.eq_dec i n) as [->|N]; [rewrite E1; lra|]. rewrite <- E1. left. apply D; [lia|rewrite tab_length; lia].
  - destruct (Nat.eq_dec i 0) as [->|N]; [rewrite E0; lra|]. rewrite <- E0. left. apply D; [lia|rewrite tab_length; lia].
Qed.
Print Assumptions C126_latitudes.

(** ... and the n longitudes start at exactly 0, are strictly increasing and below 360,
    and each differs from the exact position by at most 2^-43 degrees *)
Theorem C126_longitudes : forall n, (1 <= n)%nat -> (Z.of_nat n <= 2 ^ 40)%Z ->
  exists r, denote (lon_b64 n) r /\ length r = n
    /\ (forall j, (j < n)%nat -> Rabs (nth j r 0 - longitude n j) <= / 2 ^ 43)
    /\ nth 0 r 0 = 0 /\ strictly_increasing r /\ (forall x, In x r -> 0 <= x < 360).
Proof.
  intros n Hn Hb. exists (tab n (fl_lon n)).
  assert (D : strictly_increasing (tab n (fl_lon n))).
  { intros i j Hij Hj. rewrite tab_length in Hj. rewrite !tab_nth by lia. apply lon_incr; auto; lia. }
  split; [now apply lon_denotes|]. split; [apply tab_length|].
  split; [intros i Hi; rewrite tab_nth by lia; apply lon_error; auto; lia|].
  assert (E0 : nth 0 (tab n (fl_lon n)) 0 = 0) by (rewrite tab_nth by lia; apply lon_first).
  split; [exact E0|]. split; [exact D|]. intros y Hy. apply (In_nth _ _ 0) in Hy. destruct Hy as (i & Hi & <-). pose proof Hi as Hi'. rewrite tab_length in Hi.
  split.
  - destruct (Nat.eq_dec i 0) as [->|N]; [rewrite E0; lra|]. left. pose proof (D 0%nat i ltac:(lia) Hi') as L. rewrite E0 in L. exact L.
  - rewrite tab_nth by lia. now apply lon_360.
Qed.
Print Assumptions C126_longitudes.

(** if the spacing is a multiple of a power of two (integer, half-integer, ...
    resolutions), all latitudes and longitudes are exact *)
Theorem C126_exact_latitudes : forall n k, (1 <= n)%nat -> (Z.of_nat n <= 2 ^ 40)%Z -> (0 <= k <= 45)%Z -> (Z.of_nat n | 180 * 2 ^ k)%Z ->
  denote (lat_b64 (n + 1)) (map (latitude n) (seq 0 (n + 1))).
Proof.
  intros n k Hn Hb Hk Hd. replace (map (latitude n) (seq 0 (n + 1))) with (tab (n + 1) (fl_lat n)); [rewrite Nat.add_1_r; now apply lat_denotes|].
  apply map_ext_in. intros i Hi. apply in_seq in Hi. apply (lat_exact n k); auto; lia.
Qed.
Print Assumptions C126_exact_latitudes.
Theorem C126_exact_longitudes : forall n k, (1 <= n)%nat -> (Z.of_nat n <= 2 ^ 40)%Z -> (0 <= k <= 44)%Z -> (Z.of_nat n | 360 * 2 ^ k)%Z ->
  denote (lon_b64 n) (map (longitude n) (seq 0 n)).
Proof.
  intros n k Hn Hb Hk Hd. replace (map (longitude n) (seq 0 n)) with (tab n (fl_lon n)); [now apply lon_denotes|].
  apply map_ext_in. intros i Hi. apply in_seq in Hi. apply (lon_exact n k); auto; lia.
Qed.
Print Assumptions C126_exact_longitudes.
(** the default resolution of 2.5 degrees: 73 latitudes, 144 longitudes *)
Example C126_default : nlon_b64 (b64_div (b64_of_Z 5) (b64_of_Z 2)) = Some 144%Z /\ nlat_b64 (b64_div (b64_of_Z 5) (b64_of_Z 2)) = Some 73%Z
  /\ denote (lat_b64 73) (map (latitude 72) (seq 0 73)) /\ denote (lon_b64 144) (map (longitude 144) (seq 0 144)).
Proof.
  split; [reflexivity|]. split; [reflexivity|]. split.
  - apply (C126_exact_latitudes 72 1); try lia. exists 5%Z. reflexivity.
  - apply (C126_exact_longitudes 144 1); try lia. exists 5%Z. reflexivity.
Qed.
(** 7 intervals of latitude: no spacing that is a multiple of a power of two *)
Example C126_nonvacuous : exists r, denote (lat_b64 8) r /\ length r = 8%nat /\ Rabs (nth 3 r 0 - (90 - 540 / 7)) <= / 2 ^ 44 /\ nth 7 r 0 = -90.
Proof.
  destruct (C126_latitudes 7) as (r & D & L & E & _ & E1 & _); try lia. exists r. split; [exact D|]. split; [exact L|]. split; [|exact E1].
  specialize (E 3%nat ltac:(lia)). unfold latitude in E. cbn [INR] in E. replace (180 * (1 + 1 + 1) / (1 + 1 + 1 + 1 + 1 + 1 + 1)) with (540 / 7) in E by field. exact E.
Qed.

(** in general the rounded latitudes are not symmetric about the equator, and the middle
    latitude of an odd number of latitudes is not exactly 0 *)
Theorem C126_symmetry_refuted :
  (exists n i, (i <= n)%nat /\ forall r, denote (lat_b64 (n + 1)) r -> nth i r 0 <> - nth (n - i) r 0)
  /\ (exists n, forall r, denote (lat_b64 (2 * n + 1)) r -> nth n r 0 <> 0).
Proof.
  assert (G : forall (l : list b64) r, denote l r -> forall i, (i < length l)%nat -> nth i r 0 = float_value (nth i l S754_nan)).
  { intros l r H. induction H as [|x v l r Hx H IH]; intros i Hi; [cbn in Hi; lia|]. destruct i; [symmetry; apply Hx|]. apply IH. cbn in Hi. lia. }
  assert (P : 0 < powerRZ 2 (-47)) by (apply powerRZ_lt; lra).
  split.
  - exists 7%nat, 2%nat. split; [lia|]. intros r H. rewrite !(G _ _ H) by (vm_compute; lia).
    assert (E2 : nth 2 (lat_b64 (7 + 1)) S754_nan = S754_finite false 5428445979419794 (-47)) by (vm_compute; reflexivity).
    assert (E5 : nth (7 - 2) (lat_b64 (7 + 1)) S754_nan = S754_finite true 5428445979419796 (-47)) by (vm_compute; reflexivity).
    rewrite E2, E5. cbn [float_value]. intros E. assert (IZR 5428445979419794 * powerRZ 2 (-47) < IZR 5428445979419796 * powerRZ 2 (-47)) by (apply Rmult_lt_compat_r; [exact P|lra]). lra.
  - exists 39%nat. intros r H. rewrite (G _ _ H) by (vm_compute; lia).
    assert (E : nth 39 (lat_b64 (2 * 39 + 1)) S754_nan = S754_finite false 4503599627370496 (-98)) by (vm_compute; reflexivity).
    rewrite E. cbn [float_value]. assert (0 < powerRZ 2 (-98)) by (apply powerRZ_lt; lra). nra.
Qed.
Print Assumptions C126_symmetry_refuted.

(** C127: if the spacing is a multiple of a power of two, the selection of latitudes in
    double precision returns exactly the gridpoints between the bounds, bounds included *)
Theorem C127_latitudes : forall n k lo hi l h, (1 <= n)%nat -> (Z.of_nat n <= 2 ^ 40)%Z -> (0 <= k <= 45)%Z -> (Z.of_nat n | 180 * 2 ^ k)%Z ->
  denotes_bound lo l -> denotes_bound hi h ->
  forall i, In i (lat_range_b64 (lat_b64 (n + 1)) lo hi) <-> (i <= n)%nat /\ in_latitudes 0 l h (latitude n i).
Proof.
  intros n k lo hi l h Hn Hb Hk Hd Hl Hh i. rewrite (lat_range_same _ _ _ _ l h (C126_exact_latitudes n k Hn Hb Hk Hd)) by assumption.
  rewrite lat_sel_In. change (map (latitude n) (seq 0 (n + 1))) with (tab (n + 1) (latitude n)). rewrite tab_length. split; intros [H1 H2].
  - rewrite tab_nth in H2 by lia. split; [lia|assumption].
  - rewrite tab_nth by lia. split; [lia|assumption].
Qed.
Print Assumptions C127_latitudes.
Theorem C127_longitudes : forall n k lo hi l h, (1 <= n)%nat -> (Z.of_nat n <= 2 ^ 40)%Z -> (0 <= k <= 44)%Z -> (Z.of_nat n | 360 * 2 ^ k)%Z ->
  denotes_bound lo l -> denotes_bound hi h ->
  forall j, In j (lon_range_b64 (lon_b64 n) lo hi) <-> (j < n)%nat /\ in_longitudes 0 l h (longitude n j).
Proof.
  intros n k lo hi l h Hn Hb Hk Hd Hl Hh j. rewrite (lon_range_same _ _ _ _ l h (C126_exact_longitudes n k Hn Hb Hk Hd)) by assumption.
  rewrite lon_sel_In. change (map (longitude n) (seq 0 n)) with (tab n (longitude n)). rewrite tab_length. split; intros [H1 H2].
  - rewrite tab_nth in H2 by lia. split; [lia|assumption].
  - rewrite tab_nth by lia. split; [lia|assumption].
Qed.
Print Assumptions C127_longitudes.

(** ... in the same order as with exact arithmetic *)
Theorem C127_model : forall g n k kk lo hi l h, g_nlat g = (n + 1)%nat -> (1 <= n)%nat -> (1 <= g_nlon g)%nat ->
  (Z.of_nat n <= 2 ^ 40)%Z -> (Z.of_nat (g_nlon g) <= 2 ^ 40)%Z -> (0 <= k <= 45)%Z -> (0 <= kk <= 44)%Z ->
  (Z.of_nat n | 180 * 2 ^ k)%Z -> (Z.of_nat (g_nlon g) | 360 * 2 ^ kk)%Z -> denotes_bound lo l -> denotes_bound hi h ->
  lat_range_b64 (lat_b64 (g_nlat g)) lo hi = lat_range g l h /\ lon_range_b64 (lon_b64 (g_nlon g)) lo hi = lon_range g l h.
Proof.
  intros g n k kk lo hi l h Hg Hn Hm Hb Hb' Hk Hk' Hd Hd' Hl Hh.
  assert (N1 : 1 <= INR n) by (apply (le_INR 1); lia). assert (M1 : 1 <= INR (g_nlon g)) by (apply (le_INR 1); lia). split.
  - rewrite Hg, (lat_range_same _ _ _ _ l h (C126_exact_latitudes n k Hn Hb Hk Hd)) by assumption.
    replace (map (latitude n) (seq 0 (n + 1))) with (g_lat g).
    + unfold lat_sel, lat_range. destruct l, h; try reflexivity. now rewrite lat_length.
    + unfold g_lat, linspace_end, tab. rewrite Hg. apply map_ext. intros i. unfold latitude. replace (n + 1 - 1)%nat with n by lia. field. lra.
  - rewrite (lon_range_same _ _ _ _ l h (C126_exact_longitudes _ kk Hm Hb' Hk' Hd')) by assumption.
    replace (map (longitude (g_nlon g)) (seq 0 (g_nlon g))) with (g_lon g).
    + unfold lon_sel, lon_range. destruct l, h; try reflexivity. now rewrite lon_length.
    + unfold g_lon, linspace_noend, tab. apply map_ext. intros i. unfold longitude. field. lra.
Qed.
Print Assumptions C127_model.

(** for every resolution: all gridpoints inside the bounds by more than the rounding
    error are selected, and none that is outside by more than it *)
Theorem C127_tolerance_latitudes : forall n lo hi l h, (1 <= n)%nat -> (Z.of_nat n <= 2 ^ 40)%Z -> denotes_bound lo l -> denotes_bound hi h ->
  forall i, (i <= n)%nat ->
    (in_latitudes (- / 2 ^ 44) l h (latitude n i) -> In i (lat_range_b64 (lat_b64 (n + 1)) lo hi))
    /\ (In i (lat_range_b64 (lat_b64 (n + 1)) lo hi) -> in_latitudes (/ 2 ^ 44) l h (latitude n i)).
Proof.
  intros n lo hi l h Hn Hb Hl Hh i Hi. destruct (C126_latitudes n Hn Hb) as (r & D & L & E & _). specialize (E i Hi).
  rewrite (lat_range_same _ _ _ _ l h D) by assumption. rewrite lat_sel_In, L. split.
  - intros H. split; [lia|]. replace 0 with (- / 2 ^ 44 + / 2 ^ 44) at 1 by ring. apply in_latitudes_mono with (latitude n i); [now rewrite Rabs_minus_sym|assumption].
  - intros [_ H]. rewrite <- (Rplus_0_l (/ 2 ^ 44)). now apply in_latitudes_mono with (nth i r 0).
Qed.
Print Assumptions C127_tolerance_latitudes.
Theorem C127_tolerance_longitudes : forall n lo hi l h, (1 <= n)%nat -> (Z.of_nat n <= 2 ^ 40)%Z -> denotes_bound lo l -> denotes_bound hi h ->
  forall j, (j < n)%nat ->
    (in_longitudes (- / 2 ^ 43) l h (longitude n j) -> In j (lon_range_b64 (lon_b64 n) lo hi))
    /\ (In j (lon_range_b64 (lon_b64 n) lo hi) -> in_longitudes (/ 2 ^ 43) l h (longitude n j)).
Proof.
  intros n lo hi l h Hn Hb Hl Hh i Hi. destruct (C126_longitudes n Hn Hb) as (r & D & L & E & _). specialize (E i Hi).
  rewrite (lon_range_same _ _ _ _ l h D) by assumption. rewrite lon_sel_In, L. split.
  - intros H. split; [lia|]. replace 0 with (- / 2 ^ 43 + / 2 ^ 43) at 1 by ring. apply in_longitudes_mono with (longitude n i); [now rewrite Rabs_minus_sym|assumption].
  - intros [_ H]. rewrite <- (Rplus_0_l (/ 2 ^ 43)). now apply in_longitudes_mono with (nth i r 0).
Qed.
Print Assumptions C127_tolerance_longitudes.

(** the poles are selected exactly when they are asked for, for every resolution; so are
    the gridpoints of the 0-meridian *)
Theorem C127_poles : forall n lo hi l h, (1 <= n)%nat -> (Z.of_nat n <= 2 ^ 40)%Z -> denotes_bound lo l -> denotes_bound hi h ->
  (In 0%nat (lat_range_b64 (lat_b64 (n + 1)) lo hi) <-> in_latitudes 0 l h 90)
  /\ (In n (lat_range_b64 (lat_b64 (n + 1)) lo hi) <-> in_latitudes 0 l h (-90))
  /\ (In 0%nat (lon_range_b64 (lon_b64 n) lo hi) <-> in_longitudes 0 l h 0).
Proof.
  intros n lo hi l h Hn Hb Hl Hh. destruct (C126_latitudes n Hn Hb) as (r & D & L & _ & E0 & E1 & _). destruct (C126_longitudes n Hn Hb) as (x & D' & L' & _ & E0' & _).
  rewrite (lat_range_same _ _ _ _ l h D), (lon_range_same _ _ _ _ l h D') by assumption. rewrite !lat_sel_In, lon_sel_In, L, L', E0, E1, E0'. intuition lia.
Qed.
Print Assumptions C127_poles.

(** the hemispheres: the equator belongs to both if the spacing is a multiple of a power of two *)
Theorem C127_equator : forall n k, (1 <= n)%nat -> (Z.of_nat (2 * n) <= 2 ^ 40)%Z -> (0 <= k <= 45)%Z -> (Z.of_nat (2 * n) | 180 * 2 ^ k)%Z ->
  forall i, (In i (hemisphere_b64 (lat_b64 (2 * n + 1)) true) <-> (i <= n)%nat) /\ (In i (hemisphere_b64 (lat_b64 (2 * n + 1)) false) <-> (n <= i <= 2 * n)%nat).
Proof.
  intros n k Hn Hb Hk Hd i. assert (N1 : 1 <= INR n) by (apply (le_INR 1); lia).
  assert (V : forall j, latitude (2 * n) j = 90 * (INR n - INR j) / INR n). { intros j. unfold latitude. rewrite mult_INR. cbn [INR]. field. lra. }
  assert (P : forall j, 90 * (INR n - INR j) / INR n * INR n = 90 * (INR n - INR j)) by (intros; field; lra).
  pose proof (pos_INR i) as I0.
  unfold hemisphere_b64. split.
  - rewrite (C127_latitudes (2 * n) k _ _ (Some 0) (Some 90)); try lia; try assumption; try (apply denotes_of_Z; lia).
    unfold in_latitudes. rewrite Rmin_left, Rmax_right by lra. rewrite V. specialize (P i). split.
    + intros [_ [H _]]. apply INR_le. nra.
    + intros H. apply le_INR in H as H'. split; [lia|]. split; [|].
      * apply Rmult_le_reg_r with (INR n); [lra|]. rewrite P. lra.
      * apply Rmult_le_reg_r with (INR n); [lra|]. rewrite P. lra.
  - rewrite (C127_latitudes (2 * n) k _ _ (Some (-90)) (Some 0)); try lia; try assumption; try (apply denotes_of_Z; lia).
    unfold in_latitudes. rewrite Rmin_left, Rmax_right by lra. rewrite V. specialize (P i). split.
    + intros [H1 [_ H]]. split; [|lia]. apply INR_le. nra.
    + intros [H H2]. apply le_INR in H as H'. apply le_INR in H2 as H2'. rewrite mult_INR in H2'. cbn [INR] in H2'. split; [lia|]. split; [|].
      * apply Rmult_le_reg_r with (INR n); [lra|]. rewrite P. lra.
      * apply Rmult_le_reg_r with (INR n); [lra|]. rewrite P. lra.
Qed.
Print Assumptions C127_equator.
Example C127_nonvacuous : forall i, In i (lat_range_b64 (lat_b64 73) (Some (b64_of_Z 60)) (Some (b64_of_Z 30))) <-> (12 <= i <= 24)%nat.
Proof.
  intros i. rewrite (C127_latitudes 72 1 _ _ (Some 60) (Some 30)); try lia; [|exists 5%Z; reflexivity|apply denotes_of_Z; lia|apply denotes_of_Z; lia].
  unfold in_latitudes, latitude. rewrite Rmin_right, Rmax_left by lra. replace (INR 72) with 72 by (cbn; lra).
  assert (A : INR 12 = 12) by (cbn; lra). assert (B : INR 24 = 24) by (cbn; lra). split.
  - intros (_ & H1 & H2). split; apply INR_le; rewrite ?A, ?B; lra.
  - intros [H1 H2]. apply le_INR in H1 as H1', H2 as H2'. rewrite A in H1'. rewrite B in H2'. split; [lia|]. lra.
Qed.

(** in general the bounds are not inclusive: on the grid of resolution 1.2 degrees, the
    selection up to 62.4 degrees misses the gridpoint of latitude 62.4 degrees; with 79
    (339) latitudes, the southern (northern) hemisphere misses the equator *)
Theorem C127_inclusive_refuted :
  (nlat_b64 (b64_div (b64_of_Z 12) (b64_of_Z 10)) = Some 151%Z /\ latitude 150 23 = 624 / 10
   /\ ~ In 23%nat (lat_range_b64 (lat_b64 151) None (Some (b64_div (b64_of_Z 624) (b64_of_Z 10)))))
  /\ (latitude 78 39 = 0 /\ ~ In 39%nat (hemisphere_b64 (lat_b64 79) false))
  /\ (latitude 338 169 = 0 /\ ~ In 169%nat (hemisphere_b64 (lat_b64 339) true)).
Proof.
  assert (NI : forall x l, existsb (Nat.eqb x) l = false -> ~ In x l).
  { intros x l H I. assert (existsb (Nat.eqb x) l = true) by (apply existsb_exists; exists x; split; [exact I|apply Nat.eqb_refl]). congruence. }
  split; [split; [reflexivity|]; split|split; split].
  - unfold latitude. rewrite !INR_IZR_INZ. change (Z.of_nat 150) with 150%Z. change (Z.of_nat 23) with 23%Z. lra.
  - apply NI. vm_compute. reflexivity.
  - unfold latitude. rewrite !INR_IZR_INZ. change (Z.of_nat 78) with 78%Z. change (Z.of_nat 39) with 39%Z. lra.
  - apply NI. vm_compute. reflexivity.
  - unfold latitude. rewrite !INR_IZR_INZ. change (Z.of_nat 338) with 338%Z. change (Z.of_nat 169) with 169%Z. lra.
  - apply NI. vm_compute. reflexivity.
Qed.
Print Assumptions C127_inclusive_refuted.
