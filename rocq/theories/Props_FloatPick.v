(** C131: selection of single coordinates in double precision. *)
From Coq Require Import Reals ZArith Lia Lra.
From Flocq Require Import Core.
From Verif Require Import Base Model_Grid Model_Float Model_FloatGrid Model_FloatPick Spec_Float Spec_FloatGrid Spec_FloatPick Proofs_Base Proofs_Float Proofs_FloatRun Proofs_FloatGrid Proofs_FloatPick.
From Coq Require Import List.
Import ListNotations.
Open Scope R_scope.

(** coordinates c of N doubles at the positions pos *)
Definition placed (c : list b64) (N : nat) (pos : nat -> R) : Prop :=
  length c = N /\ forall i, (i < N)%nat -> Rabs (pos i) <= 400 /\ exists r, denotes (nth i c S754_nan) r /\ Rabs (r - pos i) <= / 2 ^ 43.
Lemma lat_placed n : (1 <= n)%nat -> (Z.of_nat n <= 2 ^ 40)%Z -> placed (lat_b64 (n + 1)) (n + 1) (latitude n).
Proof.
  intros Hn Hb. rewrite Nat.add_1_r. pose proof (lat_denotes n Hn Hb) as D. split; [rewrite (denote_length _ _ D); apply tab_length|].
  assert (P44 : / 2 ^ 44 <= / 2 ^ 43) by (apply Rinv_le_contravar; [apply pow_lt; lra|apply Rle_pow; [lra|lia]]).
  intros i Hi. split.
  - unfold latitude. assert (N1 : 1 <= INR n) by (apply (le_INR 1); lia). assert (I : 0 <= INR i <= INR n) by (split; [apply pos_INR|apply le_INR; lia]).
    assert (E : 180 * INR i / INR n * INR n = 180 * INR i) by (field; lra). apply Rabs_le. split; apply Rmult_le_reg_r with (INR n); nra.
  - exists (fl_lat n i). split; [|apply Rle_trans with (/ 2 ^ 44); [apply lat_error; auto; lia|assumption]].
    pose proof (denote_nth _ _ D i) as Q. rewrite tab_length, tab_nth in Q by lia. now apply Q.
Qed.
Lemma lon_placed n : (1 <= n)%nat -> (Z.of_nat n <= 2 ^ 40)%Z -> placed (lon_b64 n) n (longitude n).
Proof.
  intros Hn Hb. pose proof (lon_denotes n Hn Hb) as D. split; [rewrite (denote_length _ _ D); apply tab_length|]. intros i Hi. split.
  - unfold longitude. assert (N1 : 1 <= INR n) by (apply (le_INR 1); lia). assert (I : 0 <= INR i <= INR n) by (split; [apply pos_INR|apply le_INR; lia]).
    assert (E : 360 * INR i / INR n * INR n = 360 * INR i) by (field; lra). apply Rabs_le. split; apply Rmult_le_reg_r with (INR n); nra.
  - exists (fl_lon n i). split; [|apply lon_error; auto; lia]. pose proof (denote_nth _ _ D i) as Q. rewrite tab_length, tab_nth in Q by lia. now apply Q.
Qed.
Lemma placed_selection c N pos x v : placed c N pos -> denotes x v -> Rabs v <= 2 ^ 52 ->
  (forall i, (i < N)%nat -> clearly_near (pos i) v -> (forall j, (j < N)%nat -> j <> i -> clearly_far (pos j) v) -> pick_single_b64 c x = Ok [i])
  /\ (forall l, pick_single_b64 c x = Ok l -> exists i, l = [i] /\ (i < N)%nat /\ ~ clearly_far (pos i) v /\ forall j, (j < N)%nat -> j <> i -> ~ clearly_near (pos j) v)
  /\ (forall l, pick_single_b64 c x <> Ok l -> forall e, pick_single_b64 c x = Err e -> e = IndexError).
Proof.
  intros [L P] Hx Hv. split; [|split].
  - intros i Hi Ni Fj. apply single_Ok; [lia| |].
    + destruct (P i Hi) as (B & r & D & E). now apply (close_near _ _ r (pos i) v).
    + intros j Hj Ne. rewrite L in Hj. destruct (P j Hj) as (B & r & D & E). apply (close_far _ _ r (pos j) v); auto.
  - intros l H. apply single_inv in H. destruct H as (i & -> & Hi & A & O). rewrite L in *. exists i. split; [reflexivity|]. split; [assumption|]. split.
    + intros F. destruct (P i Hi) as (B & r & D & E). rewrite (close_far _ _ r (pos i) v) in A by auto. discriminate.
    + intros j Hj Ne Nn. destruct (P j Hj) as (B & r & D & E). specialize (O j Hj Ne). rewrite (close_near _ _ r (pos j) v) in O by auto. discriminate.
  - intros _ _ e H. unfold pick_single_b64 in H. destruct (Nat.eqb _ 1); congruence.
Qed.

(** C131: a latitude is found where it is clearly within the tolerance of one and clearly
    outside that of all others; where one is found, it is not clearly outside, and no
    other is clearly within *)
Theorem C131_latitudes : forall n x v, (1 <= n)%nat -> (Z.of_nat n <= 2 ^ 40)%Z -> denotes x v -> Rabs v <= 2 ^ 52 ->
  (forall i, (i <= n)%nat -> clearly_near (latitude n i) v -> (forall j, (j <= n)%nat -> j <> i -> clearly_far (latitude n j) v) -> pick_single_b64 (lat_b64 (n + 1)) x = Ok [i])
  /\ (forall l, pick_single_b64 (lat_b64 (n + 1)) x = Ok l ->
        exists i, l = [i] /\ (i <= n)%nat /\ ~ clearly_far (latitude n i) v /\ forall j, (j <= n)%nat -> j <> i -> ~ clearly_near (latitude n j) v)
  /\ (forall e, pick_single_b64 (lat_b64 (n + 1)) x = Err e -> e = IndexError).
Proof.
  intros n x v Hn Hb Hx Hv. destruct (placed_selection _ _ _ x v (lat_placed n Hn Hb) Hx Hv) as (A & B & C). split; [|split].
  - intros i Hi H O. apply A; [lia|assumption|]. intros j Hj. apply O. lia.
  - intros l H. destruct (B l H) as (i & -> & Hi & F & O). exists i. repeat split; [lia|assumption|]. intros j Hj. apply O. lia.
  - intros e H. apply (C []); [congruence|assumption].
Qed.
Print Assumptions C131_latitudes.
Theorem C131_longitudes : forall n x v, (1 <= n)%nat -> (Z.of_nat n <= 2 ^ 40)%Z -> denotes x v -> Rabs v <= 2 ^ 52 ->
  (forall i, (i < n)%nat -> clearly_near (longitude n i) v -> (forall j, (j < n)%nat -> j <> i -> clearly_far (longitude n j) v) -> pick_single_b64 (lon_b64 n) x = Ok [i])
  /\ (forall l, pick_single_b64 (lon_b64 n) x = Ok l ->
        exists i, l = [i] /\ (i < n)%nat /\ ~ clearly_far (longitude n i) v /\ forall j, (j < n)%nat -> j <> i -> ~ clearly_near (longitude n j) v)
  /\ (forall e, pick_single_b64 (lon_b64 n) x = Err e -> e = IndexError).
Proof.
  intros n x v Hn Hb Hx Hv. destruct (placed_selection _ _ _ x v (lon_placed n Hn Hb) Hx Hv) as (A & B & C). split; [exact A|split; [exact B|]].
  intros e H. apply (C []); [congruence|assumption].
Qed.
Print Assumptions C131_longitudes.

Lemma step_apart i j : i <> j -> 1 <= Rabs (INR i - INR j).
Proof.
  intros N. destruct (Nat.lt_total i j) as [L|[L|L]]; [|contradiction|].
  - rewrite Rabs_minus_sym, <- minus_INR by lia. rewrite Rabs_pos_eq by apply pos_INR. apply (le_INR 1). lia.
  - rewrite <- minus_INR by lia. rewrite Rabs_pos_eq by apply pos_INR. apply (le_INR 1). lia.
Qed.
Lemma nat_bound n k : (Z.of_nat n <= k)%Z -> INR n <= IZR k.
Proof. intros H. rewrite INR_IZR_INZ. now apply IZR_le. Qed.
Lemma nat_bound' n k : (k <= Z.of_nat n)%Z -> IZR k <= INR n.
Proof. intros H. rewrite INR_IZR_INZ. now apply IZR_le. Qed.
Lemma lat_apart n i j : (1 <= n)%nat -> i <> j -> 180 / INR n <= Rabs (latitude n i - latitude n j).
Proof.
  intros Hn N. assert (N1 : 1 <= INR n) by (apply (le_INR 1); lia). unfold latitude. pose proof (Rinv_0_lt_compat (INR n) ltac:(lra)) as P.
  replace (90 - 180 * INR i / INR n - (90 - 180 * INR j / INR n)) with (180 * / INR n * (INR j - INR i)) by (unfold Rdiv; ring).
  rewrite Rabs_mult, (Rabs_pos_eq (180 * / INR n)) by lra. pose proof (step_apart j i ltac:(auto)). unfold Rdiv. nra.
Qed.
Lemma lon_apart n i j : (1 <= n)%nat -> i <> j -> 360 / INR n <= Rabs (longitude n i - longitude n j).
Proof.
  intros Hn N. assert (N1 : 1 <= INR n) by (apply (le_INR 1); lia). unfold longitude. pose proof (Rinv_0_lt_compat (INR n) ltac:(lra)) as P.
  replace (360 * INR i / INR n - 360 * INR j / INR n) with (360 * / INR n * (INR i - INR j)) by (unfold Rdiv; ring).
  rewrite Rabs_mult, (Rabs_pos_eq (360 * / INR n)) by lra. pose proof (step_apart i j N). unfold Rdiv. nra.
Qed.
Lemma lat_size n i : (1 <= n)%nat -> (i <= n)%nat -> Rabs (latitude n i) <= 90.
Proof.
  intros Hn Hi. unfold latitude. assert (N1 : 1 <= INR n) by (apply (le_INR 1); lia). assert (I : 0 <= INR i <= INR n) by (split; [apply pos_INR|apply le_INR; lia]).
  assert (E : 180 * INR i / INR n * INR n = 180 * INR i) by (field; lra). apply Rabs_le. split; apply Rmult_le_reg_r with (INR n); nra.
Qed.
Lemma lon_size n i : (1 <= n)%nat -> (i <= n)%nat -> 0 <= longitude n i <= 360.
Proof.
  intros Hn Hi. unfold longitude. assert (N1 : 1 <= INR n) by (apply (le_INR 1); lia). assert (I : 0 <= INR i <= INR n) by (split; [apply pos_INR|apply le_INR; lia]).
  assert (E : 360 * INR i / INR n * INR n = 360 * INR i) by (field; lra). split; apply Rmult_le_reg_r with (INR n); nra.
Qed.
Lemma inv_bound n k : (1 <= n)%nat -> (Z.of_nat n <= k)%Z -> / IZR k <= / INR n.
Proof. intros Hn H. assert (N1 : 1 <= INR n) by (apply (le_INR 1); lia). apply Rinv_le_contravar; [lra|now apply nat_bound]. Qed.

(** C131: up to 190000 steps of latitude (99000 longitudes) every double within 10^-9
    degrees of a coordinate selects that coordinate *)
Theorem C131_found : forall x v, denotes x v ->
  (forall n i, (1 <= n)%nat -> (Z.of_nat n <= 190000)%Z -> (i <= n)%nat -> Rabs (v - latitude n i) <= / 10 ^ 9 -> pick_single_b64 (lat_b64 (n + 1)) x = Ok [i])
  /\ (forall n i, (1 <= n)%nat -> (Z.of_nat n <= 99000)%Z -> (i < n)%nat -> Rabs (v - longitude n i) <= / 10 ^ 9 -> pick_single_b64 (lon_b64 n) x = Ok [i]).
Proof.
  intros x v Hx. assert (P9 : / 10 ^ 9 = / 1000000000) by (rewrite (pow_IZR 10 9); reflexivity). rewrite P9. assert (P52 : 2 ^ 52 = 4503599627370496) by (rewrite (pow_IZR 2 52); reflexivity). split.
  - intros n i Hn Hb Hi HV. pose proof (lat_size n i Hn Hi) as S. assert (V : Rabs v <= 91). { replace v with ((v - latitude n i) + latitude n i) by ring. eapply Rle_trans; [apply Rabs_triang|]. lra. }
    assert (V' : Rabs v <= 90 + / 1000000000). { replace v with ((v - latitude n i) + latitude n i) by ring. eapply Rle_trans; [apply Rabs_triang|]. lra. }
    destruct (C131_latitudes n x v Hn ltac:(lia) Hx ltac:(rewrite P52; lra)) as (A & _). pose proof (Rabs_pos v). apply A; [assumption| |].
    + unfold clearly_near. rewrite tolerance_value, p42, p49, Rabs_minus_sym. lra.
    + intros j Hj N. unfold clearly_far. rewrite tolerance_value, p42, p49. pose proof (lat_apart n j i Hn N) as D. pose proof (inv_bound n 190000 Hn Hb) as I. unfold Rdiv in D.
      assert (T : Rabs (latitude n j - latitude n i) <= Rabs (latitude n j - v) + Rabs (v - latitude n i)). { replace (latitude n j - latitude n i) with ((latitude n j - v) + (v - latitude n i)) by ring. apply Rabs_triang. } lra.
  - intros n i Hn Hb Hi HV. pose proof (lon_size n i Hn ltac:(lia)) as S. assert (V : Rabs v <= 360 + / 1000000000). { apply Rabs_le_inv in HV. apply Rabs_le. lra. }
    destruct (C131_longitudes n x v Hn ltac:(lia) Hx ltac:(rewrite P52; lra)) as (A & _). pose proof (Rabs_pos v). apply A; [assumption| |].
    + unfold clearly_near. rewrite tolerance_value, p42, p49, Rabs_minus_sym. lra.
    + intros j Hj N. unfold clearly_far. rewrite tolerance_value, p42, p49. pose proof (lon_apart n j i Hn N) as D. pose proof (inv_bound n 99000 Hn Hb) as I. unfold Rdiv in D.
      assert (T : Rabs (longitude n j - longitude n i) <= Rabs (longitude n j - v) + Rabs (v - longitude n i)). { replace (longitude n j - longitude n i) with ((longitude n j - v) + (v - longitude n i)) by ring. apply Rabs_triang. } lra.
Qed.
Print Assumptions C131_found.

(** C131: in particular the values of grid.lat and grid.lon themselves *)
Theorem C131_own : (forall n i, (1 <= n)%nat -> (Z.of_nat n <= 190000)%Z -> (i <= n)%nat -> pick_single_b64 (lat_b64 (n + 1)) (nth i (lat_b64 (n + 1)) S754_nan) = Ok [i])
  /\ (forall n i, (1 <= n)%nat -> (Z.of_nat n <= 99000)%Z -> (i < n)%nat -> pick_single_b64 (lon_b64 n) (nth i (lon_b64 n) S754_nan) = Ok [i]).
Proof.
  assert (P : / 2 ^ 43 <= / 10 ^ 9). { apply Rinv_le_contravar; [apply pow_lt; lra|]. rewrite (pow_IZR 10 9), (pow_IZR 2 43). apply IZR_le. now vm_compute. }
  split; intros n i Hn Hb Hi.
  - destruct (lat_placed n Hn ltac:(lia)) as [_ Q]. destruct (Q i ltac:(lia)) as (_ & r & D & E). apply (proj1 (C131_found _ r D)); try assumption. lra.
  - destruct (lon_placed n Hn ltac:(lia)) as [_ Q]. destruct (Q i ltac:(lia)) as (_ & r & D & E). apply (proj2 (C131_found _ r D)); try assumption. lra.
Qed.
Print Assumptions C131_own.

(** C131: infinities and NaN select nothing *)
Theorem C131_not_finite : forall n x, (1 <= n)%nat -> (Z.of_nat n <= 2 ^ 40)%Z -> isfinite_b64 x = false ->
  pick_single_b64 (lat_b64 (n + 1)) x = Err IndexError /\ pick_single_b64 (lon_b64 n) x = Err IndexError.
Proof.
  intros n x Hn Hb F. assert (G : forall c N pos, placed c N pos -> pick_single_b64 c x = Err IndexError).
  { intros c N pos [L P]. apply single_never_close. intros j Hj. rewrite L in Hj. destruct (P j Hj) as (_ & r & (_ & D & _) & _). unfold isclose_b64. rewrite F, Bool.andb_false_r.
    destruct (nth j c S754_nan) as [s|s| |s m e]; try contradiction; destruct x as [t|t| |t k l]; try discriminate; try reflexivity; destruct t; try destruct s; reflexivity. }
  split; [exact (G _ _ _ (lat_placed n Hn Hb))|exact (G _ _ _ (lon_placed n Hn Hb))].
Qed.
Print Assumptions C131_not_finite.

(** "Every coordinate of the grid can be selected by its value" is wrong on fine grids,
    where the tolerance includes the neighbours: the poles from 200000 steps of latitude
    on, and the last longitude from 100001 longitudes on *)
Theorem C131_fine_refuted : (forall n, (200000 <= Z.of_nat n <= 2 ^ 40)%Z ->
    pick_single_b64 (lat_b64 (n + 1)) (b64_of_Z 90) = Err IndexError /\ pick_single_b64 (lat_b64 (n + 1)) (b64_of_Z (-90)) = Err IndexError)
  /\ (forall n, (100001 <= Z.of_nat n <= 2 ^ 40)%Z -> pick_single_b64 (lon_b64 n) (nth (n - 1) (lon_b64 n) S754_nan) = Err IndexError).
Proof.
  assert (P52 : 2 ^ 52 = 4503599627370496) by (rewrite (pow_IZR 2 52); reflexivity).
  assert (K : forall c N pos x v i j, placed c N pos -> denotes x v -> Rabs v <= 400 -> (i < N)%nat -> (j < N)%nat -> i <> j -> clearly_near (pos i) v -> clearly_near (pos j) v -> pick_single_b64 c x = Err IndexError).
  { intros c N pos x v i j [L P] Hx Hv Hi Hj Ne Ni Nj. destruct (P i Hi) as (B & r & D & E). destruct (P j Hj) as (B' & r' & D' & E').
    apply (single_two c x i j); try lia; [apply (close_near _ _ r (pos i) v)|apply (close_near _ _ r' (pos j) v)]; auto; rewrite P52; lra. }
  split; intros n Hn.
  - assert (N1 : 200000 <= INR n) by (apply (nat_bound' n 200000); lia). pose proof (Rinv_le_contravar 200000 (INR n) ltac:(lra) N1) as I. pose proof (Rinv_0_lt_compat (INR n) ltac:(lra)) as I0.
    assert (Nn : (1 <= n)%nat) by lia. pose proof (lat_placed n Nn ltac:(lia)) as P.
    assert (E0 : latitude n 0 = 90) by (unfold latitude; cbn [INR]; field; lra). assert (E1 : latitude n 1 = 90 - 180 * / INR n) by (unfold latitude; cbn [INR]; field; lra).
    assert (E2 : latitude n n = -90) by (unfold latitude; field; lra). assert (E3 : latitude n (n - 1) = -90 + 180 * / INR n) by (unfold latitude; rewrite minus_INR by lia; cbn [INR]; field; lra).
    split.
    + apply (K _ _ _ _ 90 0%nat 1%nat P); try lia; [apply (denotes_of_Z 90); lia|rewrite Rabs_pos_eq; lra| |]; unfold clearly_near; rewrite tolerance_value, p42, p49, (Rabs_pos_eq 90) by lra.
      * rewrite E0. replace (90 - 90) with 0 by ring. rewrite Rabs_R0. lra.
      * rewrite E1. replace (90 - 180 * / INR n - 90) with (- (180 * / INR n)) by ring. rewrite Rabs_Ropp, Rabs_pos_eq by lra. lra.
    + assert (A90 : Rabs (-90) = 90) by (rewrite Rabs_left by lra; lra).
      apply (K _ _ _ _ (-90) n (n - 1)%nat P); try lia; [apply (denotes_of_Z (-90)); lia|rewrite A90; lra| |]; unfold clearly_near; rewrite tolerance_value, p42, p49, A90.
      * rewrite E2. replace (-90 - -90) with 0 by ring. rewrite Rabs_R0. lra.
      * rewrite E3. replace (-90 + 180 * / INR n - -90) with (180 * / INR n) by ring. rewrite Rabs_pos_eq by lra. lra.
  - assert (N1 : 100001 <= INR n) by (apply (nat_bound' n 100001); lia). pose proof (Rinv_le_contravar 100001 (INR n) ltac:(lra) N1) as I. pose proof (Rinv_0_lt_compat (INR n) ltac:(lra)) as I0.
    assert (Nn : (1 <= n)%nat) by lia. pose proof (lon_placed n Nn ltac:(lia)) as P. destruct P as [L Q]. destruct (Q (n - 1)%nat ltac:(lia)) as (_ & r & D & E).
    assert (E1 : longitude n (n - 1) = 360 - 360 * / INR n) by (unfold longitude; rewrite minus_INR by lia; cbn [INR]; field; lra).
    assert (E2 : longitude n (n - 2) = 360 - 720 * / INR n) by (unfold longitude; rewrite minus_INR by lia; cbn [INR]; field; lra).
    assert (P43 : / 2 ^ 43 = / 8796093022208) by (rewrite (pow_IZR 2 43); reflexivity). rewrite E1, P43 in E. apply Rabs_le_inv in E.
    apply (K _ _ _ _ r (n - 1)%nat (n - 2)%nat (conj L Q) D); try lia; [rewrite Rabs_pos_eq; lra| |]; unfold clearly_near; rewrite tolerance_value, p42, p49, (Rabs_pos_eq r) by lra.
    + rewrite E1. apply Rabs_le. lra.
    + rewrite E2. apply Rabs_le. lra.
Qed.
Print Assumptions C131_fine_refuted.

(** "360 selects the 0-meridian" is wrong *)
Theorem C131_wrap_refuted : forall n, (1 <= n)%nat -> (Z.of_nat n <= 99000)%Z -> pick_single_b64 (lon_b64 n) (b64_of_Z 360) = Err IndexError
  /\ pick_single_b64 (lon_b64 n) (b64_of_Z 0) = Ok [0%nat].
Proof.
  intros n Hn Hb. split.
  - destruct (lon_placed n Hn ltac:(lia)) as [L Q]. apply single_never_close. intros j Hj. rewrite L in Hj. destruct (Q j Hj) as (B & r & D & E).
    assert (P52 : 2 ^ 52 = 4503599627370496) by (rewrite (pow_IZR 2 52); reflexivity).
    apply (close_far _ _ r (longitude n j) 360); try assumption; [apply (denotes_of_Z 360); lia|rewrite Rabs_pos_eq, P52; lra|].
    unfold clearly_far. rewrite tolerance_value, p42, p49, (Rabs_pos_eq 360) by lra. pose proof (lon_apart n j n Hn ltac:(lia)) as A. pose proof (inv_bound n 99000 Hn Hb) as I. unfold Rdiv in A.
    assert (N1 : 1 <= INR n) by (apply (le_INR 1); lia). replace (longitude n n) with 360 in A by (unfold longitude; field; lra). lra.
  - apply (proj2 (C131_found _ 0 ltac:(apply (denotes_of_Z 0); lia)) n 0%nat); try lia. unfold longitude, Rdiv. cbn [INR]. rewrite Rmult_0_r, Rmult_0_l, Rminus_0_r, Rabs_R0. left. apply Rinv_0_lt_compat, pow_lt. lra.
Qed.
Print Assumptions C131_wrap_refuted.

Example C131_nonvacuous : pick_single_b64 (lat_b64 73) (b64_div (b64_of_Z 475) (b64_of_Z 10)) = Ok [17%nat] /\ pick_single_b64 (lat_b64 73) (b64_of_Z 48) = Err IndexError
  /\ pick_single_b64 (lon_b64 7) (b64_div (b64_of_Z 360) (b64_of_Z 7)) = Ok [1%nat] /\ pick_single_b64 (lat_b64 7) (S754_infinity false) = Err IndexError.
Proof. repeat split; vm_compute; reflexivity. Qed.
