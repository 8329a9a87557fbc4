(** C136: the grid made for the coordinates of a dataset in double precision. *)
From Coq Require Import Reals ZArith Lia Lra List.
From Verif Require Import Base Model_Grid Model_Float Model_FloatGrid Model_FloatPick Model_FloatIO Spec_Float Spec_FloatGrid Spec_FloatPick Proofs_Base Proofs_Float Proofs_FloatRun Proofs_FloatGrid Proofs_FloatPick Proofs_FloatIO.
From Flocq Require Import Core.
Import ListNotations.
Open Scope R_scope.

(** C136: every dataset with the coordinates of a grid of 2 m longitudes and m + 1
    latitudes passes the verification, and the grid made for it has these numbers, or
    one longitude and one latitude less *)
Theorem C136_accepted : forall m, (2 <= m)%nat -> (Z.of_nat m <= 2 ^ 39)%Z ->
  dataset_shape_b64 (lon_b64 (2 * m)) (lat_b64 (m + 1)) = Ok (2 * Z.of_nat m, Z.of_nat m + 1)%Z
  \/ dataset_shape_b64 (lon_b64 (2 * m)) (lat_b64 (m + 1)) = Ok (2 * Z.of_nat m - 1, Z.of_nat m)%Z.
Proof. intros m Hm Hb. destruct (dataset_shape_cases m Hm Hb) as [[K _]|[E _]]; [left; exact K|right; exact E]. Qed.
Print Assumptions C136_accepted.

(** the numbers are those of the dataset if the spacing has a finite binary expansion *)
Theorem C136_exact : forall m k, (2 <= m)%nat -> (Z.of_nat m <= 2 ^ 39)%Z -> (0 <= k <= 44)%Z -> (2 * Z.of_nat m | 360 * 2 ^ k)%Z ->
  dataset_shape_b64 (lon_b64 (2 * m)) (lat_b64 (m + 1)) = Ok (2 * Z.of_nat m, Z.of_nat m + 1)%Z.
Proof.
  intros m k Hm Hb Hk Hd. apply (kept_iff m Hm Hb).
  assert (H2 : (Z.of_nat (2 * m) = 2 * Z.of_nat m)%Z) by lia.
  assert (E : spacing (2 * m) = 360 / INR (2 * m)).
  { rewrite <- spacing_lon, (lon_exact (2 * m) k); auto; try lia; [unfold longitude; cbn [INR]; unfold Rdiv; ring|now rewrite H2]. }
  assert (N1 : 2 <= INR (2 * m)) by (apply (le_INR 2); lia).
  unfold recovered. rewrite E. replace (360 / (360 / INR (2 * m))) with (INR (2 * m)) by (field; lra).
  pose proof (denotes_of_Z (Z.of_nat (2 * m)) ltac:(lia)) as D. rewrite <- INR_IZR_INZ in D. rewrite (rnd_exact _ _ D), INR_IZR_INZ, H2. apply Rle_refl.
Qed.
Print Assumptions C136_exact.

(** and for every even number of longitudes from 4 to 336 *)
Theorem C136_small : forall m, (2 <= m <= 168)%nat ->
  dataset_shape_b64 (lon_b64 (2 * m)) (lat_b64 (m + 1)) = Ok (2 * Z.of_nat m, Z.of_nat m + 1)%Z.
Proof.
  intros m Hm. apply (kept_count m); [lia|lia|].
  assert (A : forallb (fun k => match nlon_b64 (resolution_360 (Z.of_nat (2 * k))) with Some z => Z.eqb z (Z.of_nat (2 * k)) | None => false end) (seq 2 167) = true) by (vm_compute; reflexivity).
  rewrite forallb_forall in A. specialize (A m ltac:(apply in_seq; lia)). destruct (nlon_b64 _) as [z|]; [|discriminate]. apply Z.eqb_eq in A. now rewrite A.
Qed.
Print Assumptions C136_small.

(** twice as many intervals in both directions: the numbers are those of the dataset on
    the one grid if and only if they are on the other *)
Theorem C136_doubled : forall m, (2 <= m)%nat -> (Z.of_nat m <= 2 ^ 38)%Z ->
  dataset_shape_b64 (lon_b64 (2 * m)) (lat_b64 (m + 1)) = Ok (2 * Z.of_nat m, Z.of_nat m + 1)%Z
  <-> dataset_shape_b64 (lon_b64 (2 * (2 * m))) (lat_b64 (2 * m + 1)) = Ok (2 * Z.of_nat (2 * m), Z.of_nat (2 * m) + 1)%Z.
Proof.
  intros m Hm Hb. fold (kept m) (kept (2 * m)). rewrite (kept_iff m Hm) by lia. rewrite (kept_iff (2 * m)) by lia. rewrite (recovered_double (2 * m)) by lia.
  rewrite Nat2Z.inj_mul. change (Z.of_nat 2) with 2%Z. rewrite !mult_IZR. split; intros H; lra.
Qed.
Print Assumptions C136_doubled.

(** The numbers are not always kept: 338 longitudes and 170 latitudes, the coordinates of
    Grid(resolution=1.065), give a grid with 337 longitudes and 169 latitudes; and so do
    all datasets that divide the intervals of this one into halves any number of times. *)
Theorem C136_kept_refuted :
  nlon_b64 (b64_div (b64_of_Z 1065) (b64_of_Z 1000)) = Some 338%Z /\ nlat_b64 (b64_div (b64_of_Z 1065) (b64_of_Z 1000)) = Some 170%Z
  /\ dataset_shape_b64 (lon_b64 338) (lat_b64 170) = Ok (337, 169)%Z
  /\ forall k, (k <= 31)%nat -> let m := (169 * 2 ^ k)%nat in
     dataset_shape_b64 (lon_b64 (2 * m)) (lat_b64 (m + 1)) = Ok (2 * Z.of_nat m - 1, Z.of_nat m)%Z.
Proof.
  split; [vm_compute; reflexivity|]. split; [vm_compute; reflexivity|].
  assert (K0 : ~ kept 169).
  { rewrite kept_count by lia. intros H. assert (E : nlon_b64 (resolution_360 (Z.of_nat (2 * 169))) = Some 337%Z) by (vm_compute; reflexivity). rewrite E in H. apply (f_equal (fun o => match o with Some z => z | None => 0%Z end)) in H. lia. }
  assert (A : forall k, (k <= 31)%nat -> let m := (169 * 2 ^ k)%nat in (2 <= m)%nat /\ (Z.of_nat m <= 2 ^ 39)%Z /\ ~ kept m).
  { intros k Hk m. assert (ZM : Z.of_nat m = (169 * 2 ^ Z.of_nat k)%Z) by (unfold m; rewrite Nat2Z.inj_mul, Nat2Z.inj_pow; reflexivity).
    assert (P1 : (1 <= 2 ^ Z.of_nat k)%Z) by (apply (Z.pow_le_mono_r 2 0); lia). assert (P2 : (2 ^ Z.of_nat k <= 2 ^ 31)%Z) by (apply Z.pow_le_mono_r; lia).
    split; [lia|]. split; [lia|]. clear P2. subst m. induction k as [|k IH]; [exact K0|].
    assert (Q1 : (1 <= 2 ^ Z.of_nat k)%Z) by (apply (Z.pow_le_mono_r 2 0); lia). assert (Q2 : (2 ^ Z.of_nat k <= 2 ^ 30)%Z) by (apply Z.pow_le_mono_r; lia).
    assert (ZK : Z.of_nat (169 * 2 ^ k) = (169 * 2 ^ Z.of_nat k)%Z) by (rewrite Nat2Z.inj_mul, Nat2Z.inj_pow; reflexivity).
    specialize (IH ltac:(lia) ZK Q1). intros H. apply IH.
    pose proof (C136_doubled (169 * 2 ^ k) ltac:(lia) ltac:(lia)) as [_ D]. apply D.
    replace (169 * 2 ^ S k)%nat with (2 * (169 * 2 ^ k))%nat in H by (rewrite Nat.pow_succ_r'; lia). exact H. }
  assert (B : forall k, (k <= 31)%nat -> let m := (169 * 2 ^ k)%nat in dataset_shape_b64 (lon_b64 (2 * m)) (lat_b64 (m + 1)) = Ok (2 * Z.of_nat m - 1, Z.of_nat m)%Z).
  { intros k Hk m. destruct (A k Hk) as (H1 & H2 & H3). destruct (C136_accepted m H1 H2) as [E|E]; [contradiction|exact E]. }
  split; [exact (B 0%nat ltac:(lia))|exact B].
Qed.
Print Assumptions C136_kept_refuted.

(** an odd number of longitudes (up to 40001) is refused *)
Theorem C136_odd : forall m, (2 <= m)%nat -> (Z.of_nat m <= 20000)%Z ->
  dataset_shape_b64 (lon_b64 (2 * m + 1)) (lat_b64 (m + 1)) = Err AssertionError.
Proof. exact odd_rejected. Qed.
Print Assumptions C136_odd.

(** the spacing of 7 intervals is no double *)
Example C136_nonvacuous : dataset_shape_b64 (lon_b64 14) (lat_b64 8) = Ok (14, 8)%Z
  /\ dataset_shape_b64 (lon_b64 144) (lat_b64 73) = Ok (144, 73)%Z /\ dataset_shape_b64 (lon_b64 5) (lat_b64 3) = Err AssertionError.
Proof.
  split; [apply (C136_small 7); lia|]. split; [apply (C136_exact 72 1); try lia; exists 5%Z; reflexivity|]. apply (C136_odd 2); lia.
Qed.
(** the coordinates in the other direction, two longitudes swapped, a longitude missing *)
Example C136_refused : check_lon_b64 (rev (lon_b64 14)) = Err AssertionError
  /\ check_lon_b64 (firstn 13 (lon_b64 14)) = Err AssertionError
  /\ dataset_shape_b64 (lon_b64 14) (rev (lat_b64 8)) = Err AssertionError
  /\ dataset_shape_b64 (lon_b64 14) (lat_b64 9) = Err AssertionError
  /\ check_lon_b64 (match lon_b64 14 with a :: b :: c :: l => a :: c :: b :: l | l => l end) = Err AssertionError
  /\ check_lon_b64 [] = Err AssertionError /\ check_lon_b64 (lon_b64 1) = Err IndexError.
Proof. vm_compute. auto 10. Qed.
