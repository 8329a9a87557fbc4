(** C106: the shape of a grid as Python computes it, in binary64 arithmetic, for
    every resolution.  The statements speak about the real number that a float
    stands for (Spec_Float.v). *)
From Coq Require Import Reals ZArith Lia Lra.
From Verif Require Import Base Model_Float Model_Grid Spec_Float Proofs_Base Proofs_Float.
Open Scope R_scope.

(** the number of longitudes is the integer part of 360/resolution; only where the
    exact quotient falls short of an integer by less than half a unit in the last
    place may it be that integer *)
Theorem C106_longitudes : forall r, is_double r -> 0 < float_value r -> 360 / float_value r < 2 ^ 52 ->
  exists n, nlon_b64 r = Some n /\ integer_part_up_to_rounding (360 / float_value r) n.
Proof.
  intros r D P Q. apply (int_quotient 360); [lia|assumption|assumption|]. rewrite (pow_IZR 2 52) in Q. exact Q.
Qed.
Print Assumptions C106_longitudes.

Theorem C106_latitudes : forall r, is_double r -> 0 < float_value r -> 180 / float_value r < 2 ^ 52 ->
  exists n, nlat_b64 r = Some (n + 1)%Z /\ integer_part_up_to_rounding (180 / float_value r) n.
Proof.
  intros r D P Q. destruct (int_quotient 180 r) as (n & E & I); [lia|assumption|assumption|rewrite (pow_IZR 2 52) in Q; exact Q|].
  exists n. split; [|exact I]. unfold nlat_b64. now rewrite E.
Qed.
Print Assumptions C106_latitudes.

(** the exact-arithmetic model of the constructor has the shape that Python computes,
    unless a quotient falls short of an integer by less than the precision *)
Theorem C106_model : forall r, is_double r -> 0 < float_value r -> 360 / float_value r < 2 ^ 52 ->
  (forall k, ~ (IZR k * (1 - half_ulp) <= 360 / float_value r < IZR k)) ->
  (forall k, ~ (IZR k * (1 - half_ulp) <= 180 / float_value r < IZR k)) ->
  nlon_b64 r = Some (nlon_of (float_value r)) /\ nlat_b64 r = Some (nlat_of (float_value r)).
Proof.
  intros r D P Q N1 N2.
  assert (Q2 : 180 / float_value r < 2 ^ 52).
  { apply Rle_lt_trans with (2 := Q). apply Rmult_le_compat_r; [left; now apply Rinv_0_lt_compat|lra]. }
  destruct (C106_longitudes r D P Q) as (n & E & [I|I]); [|now destruct (N1 n)].
  destruct (C106_latitudes r D P Q2) as (m & F & [J|J]); [|now destruct (N2 m)].
  assert (P1 : 0 < 360 / float_value r) by (apply Rdiv_lt_0_compat; lra).
  assert (P2 : 0 < 180 / float_value r) by (apply Rdiv_lt_0_compat; lra).
  unfold nlon_of, nlat_of. rewrite !py_int_nonneg, E, F by lra.
  rewrite (Int_part_unique _ n), (Int_part_unique _ m) by lra. now split.
Qed.
Print Assumptions C106_model.

(** a resolution of 7 degrees: 51 longitudes, 26 latitudes *)
Example C106_nonvacuous_model : is_double (b64_of_Z 7) /\ 0 < float_value (b64_of_Z 7) /\ 360 / float_value (b64_of_Z 7) < 2 ^ 52
  /\ (forall k, ~ (IZR k * (1 - half_ulp) <= 360 / float_value (b64_of_Z 7) < IZR k))
  /\ (forall k, ~ (IZR k * (1 - half_ulp) <= 180 / float_value (b64_of_Z 7) < IZR k))
  /\ nlon_b64 (b64_of_Z 7) = Some 51%Z /\ nlat_b64 (b64_of_Z 7) = Some 26%Z.
Proof.
  assert (V : float_value (b64_of_Z 7) = 7).
  { change (b64_of_Z 7) with (S754_finite false 7881299347898368 (-50)). unfold float_value. cbn [powerRZ]. rewrite (pow_IZR 2).
    change (2 ^ Z.of_nat (Pos.to_nat 50))%Z with 1125899906842624%Z. field. }
  assert (U : 0 < half_ulp <= / 1000).
  { unfold half_ulp. rewrite (pow_IZR 2). change (2 ^ Z.of_nat 53)%Z with 9007199254740992%Z. lra. }
  rewrite V. split; [reflexivity|]. split; [lra|]. split; [rewrite (pow_IZR 2); change (2 ^ Z.of_nat 52)%Z with 4503599627370496%Z; lra|].
  split; [|split; [|split; reflexivity]]; intros k [K1 K2].
  - assert (L : (52 <= k)%Z) by (enough (51 < k)%Z by lia; apply lt_IZR; lra). apply IZR_le in L. nra.
  - assert (L : (26 <= k)%Z) by (enough (25 < k)%Z by lia; apply lt_IZR; lra). apply IZR_le in L. nra.
Qed.

(** where the resolution divides the circle exactly, the shape is exact *)
Theorem C106_exact : forall r n, is_double r -> (0 < n < 2 ^ 52)%Z ->
  (float_value r * IZR n = 360 -> nlon_b64 r = Some n)
  /\ (float_value r * IZR n = 180 -> nlat_b64 r = Some (n + 1)%Z).
Proof.
  intros r n D Hn. assert (N0 : 0 < IZR n) by (apply IZR_lt; lia).
  assert (NM : IZR n < 2 ^ 52) by (rewrite (pow_IZR 2 52); apply IZR_lt; exact (proj2 Hn)).
  split; intros E.
  - assert (P : 0 < float_value r) by nra. assert (Q : 360 / float_value r = IZR n) by (rewrite <- E; field; lra).
    destruct (C106_longitudes r D P) as (m & Em & I); [now rewrite Q|]. rewrite Q in I. rewrite Em. f_equal. now apply int_part_exact.
  - assert (P : 0 < float_value r) by nra. assert (Q : 180 / float_value r = IZR n) by (rewrite <- E; field; lra).
    destruct (C106_latitudes r D P) as (m & Em & I); [now rewrite Q|]. rewrite Q in I. rewrite Em. do 2 f_equal. now apply int_part_exact.
Qed.
Print Assumptions C106_exact.

Example C106_nonvacuous_exact : is_double (S754_finite false 5629499534213120 (-51))
  /\ float_value (S754_finite false 5629499534213120 (-51)) * IZR 144 = 360
  /\ nlon_b64 (S754_finite false 5629499534213120 (-51)) = Some 144%Z.
Proof.
  split; [reflexivity|]. split; [|reflexivity]. unfold float_value. cbn [powerRZ]. rewrite (pow_IZR 2).
  change (2 ^ Z.of_nat (Pos.to_nat 51))%Z with 2251799813685248%Z. field.
Qed.

(** asking for n intervals through 180/n or 360/n, the shape is at most one short *)
Theorem C106_intervals : forall n, (0 < n <= 2 ^ 49)%Z ->
  (nlat_b64 (resolution_180 n) = Some (n + 1)%Z \/ nlat_b64 (resolution_180 n) = Some n)
  /\ (nlon_b64 (resolution_180 n) = Some (2 * n)%Z \/ nlon_b64 (resolution_180 n) = Some (2 * n - 1)%Z)
  /\ (nlon_b64 (resolution_360 n) = Some n \/ nlon_b64 (resolution_360 n) = Some (n - 1)%Z).
Proof.
  intros n Hn.
  destruct (int_of_quotient 180 1 n) as (N1 & E1 & I1); [lia..|].
  destruct (int_of_quotient 180 2 n) as (N2 & E2 & I2); [lia..|].
  destruct (int_of_quotient 360 1 n) as (N3 & E3 & I3); [lia..|].
  change (180 * 1)%Z with 180%Z in E1. change (180 * 2)%Z with 360%Z in E2. change (360 * 1)%Z with 360%Z in E3.
  unfold nlat_b64, nlon_b64, resolution_180, resolution_360. rewrite E1, E2, E3. cbn [option_map].
  split; [|split].
  - destruct I1; [left|right]; f_equal; lia.
  - destruct I2; [left|right]; f_equal; lia.
  - destruct I3; [left|right]; f_equal; lia.
Qed.
Print Assumptions C106_intervals.

(** both outcomes occur *)
Example C106_nonvacuous_intervals : nlat_b64 (resolution_180 72) = Some 73%Z /\ nlon_b64 (resolution_180 72) = Some 144%Z
  /\ nlat_b64 (resolution_180 169) = Some 169%Z /\ nlon_b64 (resolution_180 169) = Some 337%Z.
Proof. repeat split; reflexivity. Qed.

(** rounding can also give one more longitude than fit: 360/7 is rounded up, and seven
    times the rounded value exceeds 360 *)
Theorem C106_rounded_up : exists r, is_double r /\ 0 < float_value r /\ 360 / float_value r < 2 ^ 52
  /\ nlon_of (float_value r) = 6%Z /\ nlon_b64 r = Some 7%Z.
Proof.
  exists (resolution_360 7). change (resolution_360 7) with (S754_finite false 7237927972559726 (-47)).
  assert (V : float_value (S754_finite false 7237927972559726 (-47)) = 7237927972559726 / 140737488355328).
  { unfold float_value. cbn [powerRZ]. rewrite (pow_IZR 2). change (2 ^ Z.of_nat (Pos.to_nat 47))%Z with 140737488355328%Z. reflexivity. }
  rewrite V. split; [reflexivity|]. split; [lra|].
  assert (Q : 6 <= 360 / (7237927972559726 / 140737488355328) < 7).
  { replace (360 / (7237927972559726 / 140737488355328)) with (360 * 140737488355328 / 7237927972559726) by field. lra. }
  split; [|split; [|reflexivity]].
  - rewrite (pow_IZR 2). change (2 ^ Z.of_nat 52)%Z with 4503599627370496%Z. lra.
  - unfold nlon_of. rewrite py_int_nonneg by lra. apply Int_part_unique. lra.
Qed.
Print Assumptions C106_rounded_up.

(** negative resolutions give the negative shape, which the constructor rejects *)
Theorem C106_sign : forall r, nlon_b64 (SFopp r) = option_map Z.opp (nlon_b64 r).
Proof.
  intros r. unfold nlon_b64. change (b64_of_Z 360) with (S754_finite false 6333186975989760 (-44)).
  destruct r as [s|s| |s m e]; try reflexivity.
  unfold b64_div, SFopp, SFdiv. destruct (SFdiv_core_binary _ _ _ _ _ _) as [[mz ez] lz].
  unfold SpecFloat.binary_round_aux. destruct (shr_fexp b64_prec b64_emax mz ez lz) as [mrs e'].
  destruct (shr_fexp _ _ (round_nearest_even _ _) e' loc_Exact) as [mrs2 e2].
  destruct (shr_m mrs2) as [|p|p]; [reflexivity| |reflexivity]. destruct (e2 <=? b64_emax - b64_prec)%Z; [|reflexivity].
  cbn [b64_int option_map]. f_equal. destruct s; cbn [xorb negb]; lia.
Qed.
Print Assumptions C106_sign.
Example C106_nonvacuous_sign : nlon_b64 (SFopp (b64_of_Z 7)) = Some (-51)%Z.
Proof. reflexivity. Qed.

(** no shape is computed for a resolution of zero or NaN *)
Theorem C106_undefined : forall s, nlon_b64 (S754_zero s) = None /\ nlat_b64 (S754_zero s) = None
  /\ nlon_b64 S754_nan = None /\ nlat_b64 S754_nan = None /\ nlon_b64 (S754_infinity s) = Some 0%Z /\ nlat_b64 (S754_infinity s) = Some 1%Z.
Proof. intros s. destruct s; repeat split; reflexivity. Qed.
Print Assumptions C106_undefined.
