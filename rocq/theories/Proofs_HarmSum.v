(** Sums over the gridpoints of products of spherical harmonics. *)
From Coq Require Export String.
From Verif Require Import Base Model_Grid Model_Spectral Spec_Spectral Spec_Symmetry Spec_Harmonics.
From Verif Require Import Proofs_Base Proofs_Trig Proofs_Spectral Proofs_Symmetry Proofs_Poly Proofs_Legendre Proofs_HarmQuad.
From Coquelicot Require Import Coquelicot.
From Coq Require Import List Lia Lra.
Import ListNotations.
Open Scope R_scope.

(** order and degree of the coefficients *)
Lemma order_from_ge : forall len m k, (2 * k < len * (len + 1))%nat -> (m <= order_from m len k)%nat.
Proof.
  induction len as [|len IH]; intros m k Hk; [lia|]. cbn [order_from]. destruct (Nat.ltb_spec k (S len)); [lia|].
  specialize (IH (S m) (k - S len)%nat ltac:(nia)). lia.
Qed.
Lemma order_from_degree : forall len m k, (2 * k < len * (len + 1))%nat -> (order_from m len k <= degree_from m len k < m + len)%nat.
Proof.
  induction len as [|len IH]; intros m k Hk; [lia|]. cbn [order_from degree_from]. destruct (Nat.ltb_spec k (S len)); [lia|].
  specialize (IH (S m) (k - S len)%nat ltac:(nia)). lia.
Qed.
Lemma index_from_inj : forall len m k l, (2 * k < len * (len + 1))%nat -> (2 * l < len * (len + 1))%nat ->
  order_from m len k = order_from m len l -> degree_from m len k = degree_from m len l -> k = l.
Proof.
  induction len as [|len IH]; intros m k l Hk Hl EO ED; [lia|]. cbn [order_from degree_from] in *.
  destruct (Nat.ltb_spec k (S len)), (Nat.ltb_spec l (S len)); [lia| | |].
  - pose proof (order_from_ge len (S m) (l - S len) ltac:(nia)). lia.
  - pose proof (order_from_ge len (S m) (k - S len) ltac:(nia)). lia.
  - specialize (IH (S m) (k - S len)%nat (l - S len)%nat ltac:(nia) ltac:(nia) EO ED). lia.
Qed.
Lemma order_degree nt k : (k < nspec nt)%nat -> (order nt k <= degree nt k <= nt)%nat.
Proof. intros H. pose proof (nspec2 nt). pose proof (order_from_degree (S nt) 0 k ltac:(nia)). unfold order, degree. lia. Qed.
Lemma index_inj nt k l : (k < nspec nt)%nat -> (l < nspec nt)%nat -> order nt k = order nt l -> degree nt k = degree nt l -> k = l.
Proof. intros H1 H2. pose proof (nspec2 nt). apply (index_from_inj (S nt)); nia. Qed.
Lemma nspec_S t : nspec (S t) = (nspec t + (t + 2))%nat.
Proof. pose proof (nspec2 t). pose proof (nspec2 (S t)). nia. Qed.
Lemma trunc_nspec nt : trunc_of (nspec nt) = nt.
Proof.
  unfold trunc_of.
  assert (mono : forall a b, (a < b)%nat -> (nspec a < nspec b)%nat).
  { intros a b H. induction H; rewrite nspec_S; lia. }
  assert (nt < nspec nt)%nat by (pose proof (nspec2 nt); nia).
  assert (G : forall n s, length (filter (fun t => Nat.ltb (nspec t) (nspec nt)) (seq s n)) = (Nat.min (s + n) (Nat.max s nt) - s)%nat).
  { induction n as [|n IH]; intros s; cbn [seq filter length]; [lia|].
    destruct (Nat.ltb_spec (nspec s) (nspec nt)) as [L|L]; cbn [length]; rewrite IH.
    - assert (s < nt)%nat by (destruct (Nat.lt_ge_cases s nt) as [|G]; [assumption|]; destruct (Nat.eq_dec s nt) as [->|]; [lia|]; specialize (mono nt s ltac:(lia)); lia). lia.
    - assert (nt <= s)%nat by (destruct (Nat.lt_ge_cases s nt) as [G|]; [specialize (mono s nt G); lia|assumption]). lia. }
  rewrite G. lia.
Qed.
Lemma order_0 nt : order nt 0 = 0%nat.
Proof. reflexivity. Qed.

(** sums along a circle of latitude *)
Section Circle.
Variable M : nat.
Hypothesis HM : (0 < M)%nat.
Lemma M_pos : 0 < INR M. Proof. now apply lt_0_INR. Qed.
Lemma lon_ang m j : INR m * col_lon M j = ang M (Z.of_nat m) j.
Proof. unfold col_lon, ang. rewrite <- INR_IZR_INZ. pose proof M_pos. field. lra. Qed.
Lemma ang_plus a b j : ang M a j + ang M b j = ang M (a + b) j.
Proof. unfold ang. rewrite plus_IZR. pose proof M_pos. field. lra. Qed.
Lemma ang_minus a b j : ang M a j - ang M b j = ang M (a - b) j.
Proof. unfold ang. rewrite minus_IZR. pose proof M_pos. field. lra. Qed.
Lemma not_div k : (k <> 0)%Z -> (Z.abs k < Z.of_nat M)%Z -> ~ (Z.of_nat M | k)%Z.
Proof. intros N A [q Q]. assert (q = 0 \/ q <> 0)%Z as [->|] by lia; [lia|]. nia. Qed.
Lemma sum_cos k : (Z.abs k < Z.of_nat M)%Z -> Rsum (tab M (fun j => cos (ang M k j))) = if (k =? 0)%Z then INR M else 0.
Proof.
  intros A. rewrite (tab_ext M _ (fun j => cos (ang M k j + 0))) by (intros; f_equal; ring). destruct (Z.eqb_spec k 0) as [->|N].
  - rewrite sum_cos_phase_div by (try assumption; exists 0%Z; lia). rewrite cos_0. ring.
  - apply sum_cos_phase; [assumption|]. now apply not_div.
Qed.
Lemma sum_sin k : (Z.abs k < Z.of_nat M)%Z -> Rsum (tab M (fun j => sin (ang M k j))) = 0.
Proof.
  intros A. rewrite (tab_ext M _ (fun j => cos (ang M k j + - (PI / 2)))).
  2:{ intros. rewrite <- cos_neg. replace (- (ang M k i + - (PI / 2))) with (PI / 2 - ang M k i) by ring. now rewrite cos_shift. }
  destruct (Z.eqb_spec k 0) as [->|N].
  - rewrite sum_cos_phase_div by (try assumption; exists 0%Z; lia). rewrite cos_neg, cos_PI2. ring.
  - apply sum_cos_phase; [assumption|]. now apply not_div.
Qed.
Definition half (m : nat) : R := if Nat.eqb m 0 then 1 else / 2.
Definition lead (m : nat) (c : C) : C := if Nat.eqb m 0 then RtoC (Re c) else c.
Lemma swing_cos c m o : (m + o < M)%nat ->
  Rsum (tab M (fun j => swing c (INR o * col_lon M j) * cos (INR m * col_lon M j))) / INR M = if Nat.eqb o m then half m * Re (lead m c) else 0.
Proof.
  intros H. pose proof M_pos.
  rewrite (tab_ext M _ (fun j => Re c / 2 * (cos (ang M (Z.of_nat o - Z.of_nat m) j)) + (Re c / 2 * cos (ang M (Z.of_nat o + Z.of_nat m) j)
     + (- Im c / 2 * sin (ang M (Z.of_nat o - Z.of_nat m) j) + - Im c / 2 * sin (ang M (Z.of_nat o + Z.of_nat m) j))))).
  2:{ intros j Hj. unfold swing. rewrite !lon_ang, <- ang_plus, <- ang_minus, cos_plus, cos_minus, sin_plus, sin_minus. field. }
  rewrite !Rsum_tab_plus, !Rsum_tab_scal. rewrite !sum_cos, !sum_sin by lia.
  destruct (Nat.eqb_spec o m) as [->|N].
  - rewrite Z.sub_diag. cbn [Z.eqb]. unfold half, lead. destruct (Nat.eqb_spec m 0) as [->|N0]; cbn [Z.of_nat Z.add Z.eqb].
    + cbn [Re RtoC fst]. field. lra.
    + destruct (Z.eqb_spec (Z.of_nat m + Z.of_nat m) 0); [lia|]. field. lra.
  - destruct (Z.eqb_spec (Z.of_nat o - Z.of_nat m) 0); [lia|]. destruct (Z.eqb_spec (Z.of_nat o + Z.of_nat m) 0); [lia|]. field. lra.
Qed.
Lemma swing_sin c m o : (m + o < M)%nat ->
  - (Rsum (tab M (fun j => swing c (INR o * col_lon M j) * sin (INR m * col_lon M j))) / INR M) = if Nat.eqb o m then half m * Im (lead m c) else 0.
Proof.
  intros H. pose proof M_pos.
  rewrite (tab_ext M _ (fun j => Im c / 2 * (cos (ang M (Z.of_nat o + Z.of_nat m) j)) + (- Im c / 2 * cos (ang M (Z.of_nat o - Z.of_nat m) j)
     + (Re c / 2 * sin (ang M (Z.of_nat o + Z.of_nat m) j) + - Re c / 2 * sin (ang M (Z.of_nat o - Z.of_nat m) j))))).
  2:{ intros j Hj. unfold swing. rewrite !lon_ang, <- ang_plus, <- ang_minus, cos_plus, cos_minus, sin_plus, sin_minus. field. }
  rewrite !Rsum_tab_plus, !Rsum_tab_scal. rewrite !sum_cos, !sum_sin by lia.
  destruct (Nat.eqb_spec o m) as [->|N].
  - rewrite Z.sub_diag. cbn [Z.eqb]. unfold half, lead. destruct (Nat.eqb_spec m 0) as [->|N0]; cbn [Z.of_nat Z.add Z.eqb].
    + cbn [Im RtoC snd]. field. lra.
    + destruct (Z.eqb_spec (Z.of_nat m + Z.of_nat m) 0); [lia|]. field. lra.
  - destruct (Z.eqb_spec (Z.of_nat o - Z.of_nat m) 0); [lia|]. destruct (Z.eqb_spec (Z.of_nat o + Z.of_nat m) 0); [lia|]. field. lra.
Qed.
End Circle.

(** correlations of functions of row and column *)
Definition corr (h : part) (N M m n : nat) (F : nat -> nat -> R) : C :=
  (Rsum (tab N (fun i => row_weight N i * h m n (row_lat N i) * (Rsum (tab M (fun j => F i j * cos (INR m * col_lon M j))) / INR M))),
   - Rsum (tab N (fun i => row_weight N i * h m n (row_lat N i) * (Rsum (tab M (fun j => F i j * sin (INR m * col_lon M j))) / INR M)))).
Lemma correlate_corr h N M m n f : correlate h N M m n f = corr h N M m n (mget f).
Proof. reflexivity. Qed.
Lemma corr_ext h N M m n F G : (forall i j, (i < N)%nat -> (j < M)%nat -> F i j = G i j) -> corr h N M m n F = corr h N M m n G.
Proof.
  intros H. unfold corr. f_equal; [|f_equal]; f_equal; apply tab_ext; intros i Hi; do 3 f_equal; apply tab_ext; intros j Hj; now rewrite H.
Qed.
Lemma correlate_mat_of h N M m n F : correlate h N M m n (mat_of N M F) = corr h N M m n F.
Proof. rewrite correlate_corr. apply corr_ext. intros i j Hi Hj. now apply mget_mat_of. Qed.
Lemma pairC (a b c d : R) : a = c -> b = d -> (a, b) = (c, d) :> C.
Proof. congruence. Qed.
Lemma corr_lin h N M m n a b F G : corr h N M m n (fun i j => a * F i j + b * G i j) = Cplus (Cmult (RtoC a) (corr h N M m n F)) (Cmult (RtoC b) (corr h N M m n G)).
Proof.
  unfold corr, Cplus, Cmult, RtoC. cbn [fst snd].
  assert (E : forall T, Rsum (tab N (fun i => row_weight N i * h m n (row_lat N i) * (Rsum (tab M (fun j => (a * F i j + b * G i j) * T (INR m * col_lon M j))) / INR M)))
    = a * Rsum (tab N (fun i => row_weight N i * h m n (row_lat N i) * (Rsum (tab M (fun j => F i j * T (INR m * col_lon M j))) / INR M)))
    + b * Rsum (tab N (fun i => row_weight N i * h m n (row_lat N i) * (Rsum (tab M (fun j => G i j * T (INR m * col_lon M j))) / INR M)))).
  { intros T. rewrite <- !Rsum_tab_scal, <- Rsum_tab_plus. f_equal. apply tab_ext. intros i Hi.
    rewrite (tab_ext M _ (fun j => a * (F i j * T (INR m * col_lon M j)) + b * (G i j * T (INR m * col_lon M j)))) by (intros; ring).
    rewrite Rsum_tab_plus, !Rsum_tab_scal. unfold Rdiv. ring. }
  rewrite (E cos), (E sin). apply pairC; ring.
Qed.
Definition Csum (l : list C) : C := (Rsum (map Re l), Rsum (map Im l)).
Lemma Csum_eq L (f : nat -> C) : Csum (tab L f) = (Rsum (tab L (fun k => Re (f k))), Rsum (tab L (fun k => Im (f k)))).
Proof. unfold Csum, tab. now rewrite !map_map. Qed.
Lemma corr_sum h N M m n L (F : nat -> nat -> nat -> R) :
  corr h N M m n (fun i j => Rsum (tab L (fun k => F k i j))) = Csum (tab L (fun k => corr h N M m n (F k))).
Proof.
  rewrite Csum_eq.
  assert (E : forall T, Rsum (tab N (fun i => row_weight N i * h m n (row_lat N i) * (Rsum (tab M (fun j => Rsum (tab L (fun k => F k i j)) * T (INR m * col_lon M j))) / INR M)))
    = Rsum (tab L (fun k => Rsum (tab N (fun i => row_weight N i * h m n (row_lat N i) * (Rsum (tab M (fun j => F k i j * T (INR m * col_lon M j))) / INR M)))))).
  { intros T. rewrite (Rsum_tab_swap L N). f_equal. apply tab_ext. intros i Hi.
    rewrite Rsum_tab_scal. f_equal. unfold Rdiv. rewrite Rsum_tab_scal_r. f_equal. rewrite (Rsum_tab_swap L M). f_equal. apply tab_ext. intros j Hj. now rewrite Rsum_tab_scal_r. }
  unfold corr. rewrite (E cos), (E sin). apply pairC; [reflexivity|]. unfold Im. cbn [snd].
  transitivity ((-1) * Rsum (tab L (fun k => Rsum (tab N (fun i => row_weight N i * h m n (row_lat N i) * (Rsum (tab M (fun j => F k i j * sin (INR m * col_lon M j))) / INR M)))))); [ring|].
  rewrite <- Rsum_tab_scal. f_equal. apply tab_ext. intros k Hk. ring.
Qed.
Lemma Csum_one L (f : nat -> C) k : (k < L)%nat -> (forall l, (l < L)%nat -> l <> k -> f l = RtoC 0) -> Csum (tab L f) = f k.
Proof.
  intros H Z. rewrite !Csum_eq.
  rewrite (Rsum_tab_one L _ k), (Rsum_tab_one L _ k); [now destruct (f k)|assumption| |assumption|]; intros l Hl N; now rewrite (Z l).
Qed.
Lemma Csum_ext L (f g : nat -> C) : (forall k, (k < L)%nat -> f k = g k) -> Csum (tab L f) = Csum (tab L g).
Proof. intros H. f_equal. now apply tab_ext. Qed.
Lemma Csum_zero L (f : nat -> C) : (forall k, (k < L)%nat -> f k = RtoC 0) -> Csum (tab L f) = RtoC 0.
Proof.
  intros H. rewrite !Csum_eq.
  rewrite !Rsum_tab_zero; [reflexivity| |]; intros l Hl; now rewrite H.
Qed.
Lemma Csum_plus L (f g : nat -> C) : Csum (tab L (fun k => Cplus (f k) (g k))) = Cplus (Csum (tab L f)) (Csum (tab L g)).
Proof.
  rewrite !Csum_eq.
  unfold Cplus. cbn [fst snd]. rewrite <- !Rsum_tab_plus. reflexivity.
Qed.
Lemma Csum_scal L (f : nat -> C) c : Csum (tab L (fun k => Cmult c (f k))) = Cmult c (Csum (tab L f)).
Proof.
  rewrite !Csum_eq.
  unfold Cmult. cbn [fst snd]. rewrite <- !Rsum_tab_scal, <- Rsum_tab_minus, <- Rsum_tab_plus. reflexivity.
Qed.
(** sum over the rows *)
Definition dot (h : part) (N m n : nat) (g : R -> R) : R := Rsum (tab N (fun i => row_weight N i * (h m n (row_lat N i) * g (row_lat N i)))).
Lemma corr_mode h N M m n g c o : (0 < M)%nat -> (m + o < M)%nat ->
  corr h N M m n (fun i j => g (row_lat N i) * swing c (INR o * col_lon M j)) = if Nat.eqb o m then Cmult (RtoC (half m * dot h N m n g)) (lead m c) else RtoC 0.
Proof.
  intros HM H.
  assert (E : forall T, Rsum (tab N (fun i => row_weight N i * h m n (row_lat N i) * (Rsum (tab M (fun j => g (row_lat N i) * swing c (INR o * col_lon M j) * T (INR m * col_lon M j))) / INR M)))
    = dot h N m n g * (Rsum (tab M (fun j => swing c (INR o * col_lon M j) * T (INR m * col_lon M j))) / INR M)).
  { intros T. unfold dot. rewrite <- Rsum_tab_scal_r. f_equal. apply tab_ext. intros i Hi.
    rewrite (tab_ext M _ (fun j => g (row_lat N i) * (swing c (INR o * col_lon M j) * T (INR m * col_lon M j)))) by (intros; ring). rewrite Rsum_tab_scal. unfold Rdiv. ring. }
  unfold corr. rewrite (E cos), (E sin). rewrite Ropp_mult_distr_r. rewrite swing_cos, swing_sin by assumption.
  destruct (Nat.eqb o m); unfold Cmult, RtoC; cbn [fst snd]; apply pairC; fold (Re (lead m c)) (Im (lead m c)); ring.
Qed.

(** the sums over the rows are means over the sphere *)
Lemma poly_null d f : (forall z, f z = 0) -> polyf d f.
Proof. intros H. apply (poly_ext d (fun _ => 0)); [apply (poly_weaken 0); [lia|apply poly_const]|exact H]. Qed.
Lemma poly_p1q m n l : (m <= n)%nat -> (m <= l)%nat -> polyf (n + l - 2 * m - 1) (fun z => rodrigues n (S m) z * rodrigues l m z).
Proof.
  intros A B. destruct (Nat.eq_dec n m) as [->|Ne]; [apply poly_null; intros z; rewrite (rodrigues_high m) by lia; ring|].
  apply (poly_weaken (n - S m + (l - m))); [lia|]. apply poly_mult; apply poly_rodrigues.
Qed.
Lemma poly_cross2 m n l : (m <= n)%nat -> (m <= l)%nat -> polyf (n + l - 2 * m - 1) (fun z => rodrigues n (S m) z * rodrigues l m z + rodrigues n m z * rodrigues l (S m) z).
Proof.
  intros A B. apply poly_plus; [now apply poly_p1q|]. apply (poly_ext _ (fun z => rodrigues l (S m) z * rodrigues n m z)); [|intros; ring].
  replace (n + l - 2 * m - 1)%nat with (l + n - 2 * m - 1)%nat by lia. now apply poly_p1q.
Qed.
Lemma poly_energy m n l : (m <= n)%nat -> (m <= l)%nat -> polyf (n + l) (energy m n l).
Proof.
  intros A B. unfold energy. apply poly_plus; [apply poly_minus|].
  - destruct (Nat.eq_dec n m) as [->|Nn]; [apply poly_null; intros z; rewrite (rodrigues_high m) by lia; ring|].
    destruct (Nat.eq_dec l m) as [->|Nl]; [apply poly_null; intros z; rewrite (rodrigues_high m (S m)) by lia; ring|].
    apply (poly_weaken (2 * S m + (n - S m + (l - S m)))); [lia|].
    apply (poly_mult _ _ (fun z => (1 - z ^ 2) ^ S m) (fun z => rodrigues n (S m) z * rodrigues l (S m) z)); [apply poly_wpow|]. apply poly_mult; apply poly_rodrigues.
  - destruct (Nat.eq_dec (n + l) (2 * m)) as [E|Ne].
    + apply poly_null. intros z. rewrite (rodrigues_high n (S m)), (rodrigues_high l (S m)) by lia. ring.
    + apply (poly_ext _ (fun z => INR m * (z * ((1 - z ^ 2) ^ m * (rodrigues n (S m) z * rodrigues l m z + rodrigues n m z * rodrigues l (S m) z))))); [|intros; ring].
      apply poly_scal. apply (poly_weaken (S (2 * m + (n + l - 2 * m - 1)))); [lia|].
      apply (poly_shift _ (fun z => (1 - z ^ 2) ^ m * (rodrigues n (S m) z * rodrigues l m z + rodrigues n m z * rodrigues l (S m) z))).
      apply (poly_mult _ _ (fun z => (1 - z ^ 2) ^ m) (fun z => rodrigues n (S m) z * rodrigues l m z + rodrigues n m z * rodrigues l (S m) z)); [apply poly_wpow|now apply poly_cross2].
  - destruct m as [|m']; [apply poly_null; intros z; cbn [INR]; ring|].
    apply (poly_ext _ (fun z => INR (S m') * INR (S m') * ((1 + z ^ 2) * ((1 - z ^ 2) ^ m' * (rodrigues n (S m') z * rodrigues l (S m') z)))));
      [|intros z; replace (S m' - 1)%nat with m' by lia; ring].
    apply poly_scal. apply (poly_weaken (2 + (2 * m' + (n - S m' + (l - S m'))))); [lia|].
    apply (poly_mult 2 _ (fun z => 1 + z ^ 2) (fun z => (1 - z ^ 2) ^ m' * (rodrigues n (S m') z * rodrigues l (S m') z))).
    + exists [1; 0; 1]. split; [cbn; lia|]. intros x. cbn. ring.
    + apply (poly_mult _ _ (fun z => (1 - z ^ 2) ^ m') (fun z => rodrigues n (S m') z * rodrigues l (S m') z)); [apply poly_wpow|]. apply poly_mult; apply poly_rodrigues.
Qed.
Lemma poly_crossing m n l : (m <= n)%nat -> (m <= l)%nat -> polyf (n + l) (crossing m n l).
Proof.
  intros A B. apply (poly_ext _ (Derive (fun z => INR m * product m n l z))).
  - apply (poly_weaken (n + l - 1)); [lia|]. apply poly_Derive, poly_scal. now apply poly_product.
  - intros z. symmetry. apply is_derive_unique. now apply crossing_derive.
Qed.
Section Dots.
Variables N m n l : nat.
Hypothesis HN : (2 <= N)%nat.
Hypothesis Hn : (m <= n)%nat.
Hypothesis Hl : (m <= l)%nat.
Hypothesis HD : (n + l < N)%nat.
Lemma cos_pow_split k phi : (1 <= k)%nat -> cos phi ^ k = cos phi * cos phi ^ (k - 1).
Proof. intros H. replace k with (S (k - 1)) at 1 by lia. reflexivity. Qed.
Lemma cos_even k phi : cos phi ^ k * cos phi ^ k = (1 - sin phi ^ 2) ^ k.
Proof. rewrite <- Rpow_mult_distr. f_equal. pose proof (sin2_cos2 phi) as H. unfold Rsqr in H. lra. Qed.
Lemma dot_value : dot h_value N m n (h_value m l) = mean (product m n l).
Proof.
  rewrite <- (quadrature N HN (n + l)); [|now apply poly_product|exact HD]. unfold dot. f_equal. apply tab_ext. intros i Hi. f_equal.
  unfold h_value, product. rewrite <- cos_even. ring.
Qed.
Lemma dot_energy : dot h_east N m n (h_east m l) + dot h_north N m n (h_north m l) = mean (energy m n l).
Proof.
  rewrite <- (quadrature N HN (n + l)); [|now apply poly_energy|exact HD]. unfold dot. rewrite <- Rsum_tab_plus. f_equal. apply tab_ext. intros i Hi.
  rewrite <- Rmult_plus_distr_l. f_equal. unfold h_east, h_north, energy. rewrite !Nat.add_1_r. set (phi := row_lat N i).
  destruct m as [|m'].
  - cbn [INR Nat.sub pow]. pose proof (sin2_cos2 phi) as S. unfold Rsqr in S. replace (1 - sin phi * (sin phi * 1)) with (cos phi * cos phi) by lra. ring.
  - replace (S m' - 1)%nat with m' by lia. assert (W : 1 - sin phi ^ 2 = cos phi * cos phi) by (pose proof (sin2_cos2 phi) as S; unfold Rsqr in S; lra).
    rewrite W, !Rpow_mult_distr. cbn [pow]. replace (sin phi * (sin phi * 1)) with (1 - cos phi * cos phi) by lra. generalize (cos phi ^ m') (rodrigues n (S m') (sin phi)) (rodrigues l (S m') (sin phi)) (rodrigues n (S (S m')) (sin phi)) (rodrigues l (S (S m')) (sin phi)).
    intros c5 p5 q5 p6 q6. cut (sin phi * sin phi = 1 - cos phi * cos phi); [|lra]. generalize (sin phi) (cos phi) (INR (S m')). intros s5 c6 m5 S5. ring [S5].
Qed.
Lemma dot_crossing : dot h_east N m n (h_north m l) + dot h_north N m n (h_east m l) = mean (crossing m n l).
Proof.
  rewrite <- (quadrature N HN (n + l)); [|now apply poly_crossing|exact HD]. unfold dot. rewrite <- Rsum_tab_plus. f_equal. apply tab_ext. intros i Hi.
  rewrite <- Rmult_plus_distr_l. f_equal. unfold h_east, h_north, crossing. rewrite !Nat.add_1_r. set (phi := row_lat N i).
  destruct m as [|m'].
  - cbn [INR Nat.sub pow]. ring.
  - replace (S m' - 1)%nat with m' by lia. assert (W : 1 - sin phi ^ 2 = cos phi * cos phi) by (pose proof (sin2_cos2 phi) as S; unfold Rsqr in S; lra).
    rewrite W, !Rpow_mult_distr. cbn [pow]. replace (sin phi * (sin phi * 1)) with (1 - cos phi * cos phi) by lra. generalize (cos phi ^ m') (rodrigues n (S m') (sin phi)) (rodrigues l (S m') (sin phi)) (rodrigues n (S (S m')) (sin phi)) (rodrigues l (S (S m')) (sin phi)).
    intros c5 p5 q5 p6 q6. cut (sin phi * sin phi = 1 - cos phi * cos phi); [|lra]. generalize (sin phi) (cos phi) (INR (S m')). intros s5 c6 m5 S5. ring [S5].
Qed.
End Dots.
Lemma product_sym m n l z : product m n l z = product m l n z.
Proof. unfold product. ring. Qed.
Lemma energy_sym m n l z : energy m n l z = energy m l n z.
Proof. unfold energy. ring. Qed.
Lemma orthogonal m n l : (m <= n)%nat -> (m <= l)%nat -> n <> l -> mean (product m n l) = 0.
Proof.
  intros A B Ne. pose proof (mean_energy m n l A B) as E1. pose proof (mean_energy m l n B A) as E2.
  rewrite (mean_ext (energy m l n) (energy m n l)) in E2 by (intros; apply energy_sym). rewrite (mean_ext (product m l n) (product m n l)) in E2 by (intros; apply product_sym).
  assert (F : (INR n - INR l) * (INR n + INR l + 1) * mean (product m n l) = 0) by lra.
  pose proof (pos_INR n). pose proof (pos_INR l). assert (INR n <> INR l) by (intros E; apply Ne; now apply INR_eq).
  apply Rmult_integral in F. destruct F as [F|F]; [|exact F]. apply Rmult_integral in F. destruct F; lra.
Qed.
Lemma norm_pos m n : (m <= n)%nat -> 0 < mean (product m n n).
Proof.
  intros H. unfold mean. assert (0 < RInt (product m n n) (-1) 1); [|lra]. apply square_integral_pos; [lra| | |].
  - intros x. apply (poly_continuous (n + n)). now apply poly_product.
  - intros x X. unfold product. apply Rmult_le_pos; [apply pow_le; nra|]. apply Rle_0_sqr.
  - destruct (rodrigues_nonzero n m H) as [z [Z P]]. exists z. split; [exact Z|]. unfold product. apply Rmult_lt_0_compat; [apply pow_lt; nra|]. now apply Rsqr_pos_lt.
Qed.
Lemma mean_square_eq m n : mean_square m n = half m * mean (product m n n).
Proof. reflexivity. Qed.
Lemma mean_square_pos m n : (m <= n)%nat -> 0 < mean_square m n.
Proof. intros H. rewrite mean_square_eq. pose proof (norm_pos m n H). unfold half. destruct (Nat.eqb m 0); lra. Qed.
