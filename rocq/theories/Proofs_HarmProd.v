(** Products of two harmonics on a sufficiently fine grid. *)
From Coq Require Export String.
From Verif Require Import Base Model_Grid Model_Spectral Spec_Spectral Spec_Calculus Spec_Symmetry Spec_Waves Spec_Harmonics.
From Verif Require Import Proofs_Base Proofs_Trig Proofs_Spectral Proofs_Instance Proofs_State Proofs_Symmetry Proofs_Poly Proofs_Legendre Proofs_HarmQuad Proofs_HarmSum Proofs_Harmonics Proofs_HarmSym.
From Coquelicot Require Import Coquelicot.
From Coq Require Import List Lia Lra.
Import ListNotations.
Open Scope R_scope.

(** ** Sums over the rows *)
Lemma crossing_at m n l phi : h_east m n phi * h_north m l phi + h_north m n phi * h_east m l phi = crossing m n l (sin phi).
Proof.
  unfold h_east, h_north, crossing. rewrite !Nat.add_1_r. destruct m as [|m'].
  - cbn [INR Nat.sub pow]. ring.
  - replace (S m' - 1)%nat with m' by lia. assert (W : 1 - sin phi ^ 2 = cos phi * cos phi) by (pose proof (sin2_cos2 phi) as S; unfold Rsqr in S; lra).
    rewrite W, !Rpow_mult_distr. cbn [pow]. generalize (cos phi ^ m') (rodrigues n (S m') (sin phi)) (rodrigues l (S m') (sin phi)) (rodrigues n (S (S m')) (sin phi)) (rodrigues l (S (S m')) (sin phi)).
    intros c5 p5 q5 p6 q6. ring.
Qed.
Lemma crossing_0 n l z : crossing 0 n l z = 0.
Proof. unfold crossing. change (INR 0) with 0. ring. Qed.
Lemma product_ends m n l : (1 <= m)%nat -> product m n l 1 = 0 /\ product m n l (-1) = 0.
Proof. intros H. unfold product. destruct m; [lia|]. replace (1 - 1 ^ 2) with 0 by ring. replace (1 - (-1) ^ 2) with 0 by ring. cbn [pow]. split; ring. Qed.
Lemma poly_sine_crossing m n l : (m <= n)%nat -> (m <= l)%nat -> polyf (n + l) (fun z => z * crossing m n l z).
Proof.
  intros A B. destruct m as [|m]; [apply poly_null; intros z; rewrite crossing_0; ring|].
  apply (poly_weaken (S (n + l - 1))); [lia|]. apply poly_shift. apply (poly_ext _ (Derive (fun z => INR (S m) * product (S m) n l z))).
  - apply poly_Derive, poly_scal. now apply poly_product.
  - intros z. symmetry. apply is_derive_unique. now apply crossing_derive.
Qed.
Lemma mean_sine_crossing m n l : (m <= n)%nat -> (m <= l)%nat -> mean (fun z => z * crossing m n l z) = - INR m * mean (product m n l).
Proof.
  intros A B. destruct (Nat.eq_dec m 0) as [->|Z].
  { rewrite (mean_ext _ (fun _ => 0)) by (intros; rewrite crossing_0; ring). rewrite mean_const. change (INR 0) with 0. ring. }
  assert (E : mean (fun z => INR m * product m n l z + z * crossing m n l z) = 0).
  { apply (mean_exact (S (n + l)) (fun z => z * (INR m * product m n l z))).
    - apply (poly_shift _ (fun z => INR m * product m n l z)), poly_scal. now apply poly_product.
    - intros z. evar_last; [apply @is_derive_mult; [apply @is_derive_id|now apply crossing_derive|intros; apply Rmult_comm]|].
      unfold minus, plus, opp, mult, scal, one; cbn -[INR pow crossing product]. ring.
    - destruct (product_ends m n l) as [-> _]; [lia|]. ring.
    - destruct (product_ends m n l) as [_ ->]; [lia|]. ring. }
  rewrite (mean_plus (n + l)) in E; [|apply poly_scal; now apply poly_product|now apply poly_sine_crossing].
  rewrite (mean_scal (n + l)) in E by now apply poly_product. lra.
Qed.
Lemma dot_across N m n l : (2 <= N)%nat -> (m <= n)%nat -> (m <= l)%nat -> (n + l < N)%nat ->
  dot h_east N m n (fun phi => sin phi * h_north m l phi) + dot h_north N m n (fun phi => sin phi * h_east m l phi) = - INR m * mean (product m n l).
Proof.
  intros HN A B G. rewrite <- mean_sine_crossing by assumption. rewrite <- (quadrature N HN (n + l)); [|now apply poly_sine_crossing|exact G].
  unfold dot. rewrite <- Rsum_tab_plus. f_equal. apply tab_ext. intros i Hi. rewrite <- Rmult_plus_distr_l. f_equal. rewrite <- crossing_at. ring.
Qed.

(** three harmonics *)
Section Triple.
Variables N ma na mb nb m n : nat.
Hypothesis HN : (2 <= N)%nat.
Hypothesis Ha : (ma <= na)%nat.
Hypothesis Hb : (mb <= nb)%nat.
Hypothesis Hm : (1 <= m <= n)%nat.
Hypothesis HD : (na + nb + n <= N)%nat.
Variable q : nat.
Hypothesis Hq : (ma + mb + m = 2 * q)%nat.
Hypothesis Hp : (1 <= ma + mb)%nat.
Definition both (phi : R) : R := h_value ma na phi * h_north mb nb phi + h_north ma na phi * h_value mb nb phi.
Definition both_over (phi : R) : R := cos phi ^ (ma + mb - 1) * rodrigues na ma (sin phi) * rodrigues nb mb (sin phi).
Let three z := (1 - z ^ 2) ^ q * (rodrigues na ma z * rodrigues nb mb z * rodrigues n m z).
Let three' z := (1 - z ^ 2) ^ q * (rodrigues na (S ma) z * rodrigues nb mb z * rodrigues n m z + rodrigues na ma z * rodrigues nb (S mb) z * rodrigues n m z
    + rodrigues na ma z * rodrigues nb mb z * rodrigues n (S m) z)
  - 2 * INR q * z * (1 - z ^ 2) ^ (q - 1) * (rodrigues na ma z * rodrigues nb mb z * rodrigues n m z).
Lemma poly_three : polyf (na + nb + n) three.
Proof.
  apply (poly_weaken (2 * q + (na - ma + (nb - mb) + (n - m)))); [lia|].
  apply (poly_mult _ _ (fun z => (1 - z ^ 2) ^ q) (fun z => rodrigues na ma z * rodrigues nb mb z * rodrigues n m z)); [apply poly_wpow|].
  apply (poly_mult _ _ (fun z => rodrigues na ma z * rodrigues nb mb z) (rodrigues n m)); [apply poly_mult|]; apply poly_rodrigues.
Qed.
Lemma three_derive z : is_derive three z (three' z).
Proof.
  unfold three, three'. evar_last.
  { apply @is_derive_mult; [apply is_derive_w| |intros; apply Rmult_comm].
    apply @is_derive_mult; [|apply rodrigues_step|intros; apply Rmult_comm]. apply @is_derive_mult; [apply rodrigues_step|apply rodrigues_step|intros; apply Rmult_comm]. }
  unfold minus, plus, opp, mult, scal; cbn -[INR pow]. ring.
Qed.
Lemma both_eq phi : both phi = cos phi ^ (ma + mb + 1) * (rodrigues na (S ma) (sin phi) * rodrigues nb mb (sin phi) + rodrigues na ma (sin phi) * rodrigues nb (S mb) (sin phi))
  - INR (ma + mb) * cos phi ^ (ma + mb - 1) * sin phi * (rodrigues na ma (sin phi) * rodrigues nb mb (sin phi)).
Proof.
  unfold both, h_value, h_north. rewrite !Nat.add_1_r. set (c := cos phi). set (A := rodrigues na ma _). set (B := rodrigues nb mb _). set (A1 := rodrigues na (S ma) _). set (B1 := rodrigues nb (S mb) _).
  assert (E1 : INR mb * (c ^ ma * c ^ (mb - 1)) = INR mb * c ^ (ma + mb - 1)).
  { destruct mb as [|b]; [cbn [INR]; ring|]. rewrite <- pow_add. do 2 f_equal. lia. }
  assert (E2 : INR ma * (c ^ (ma - 1) * c ^ mb) = INR ma * c ^ (ma + mb - 1)).
  { destruct ma as [|a]; [cbn [INR]; ring|]. rewrite <- pow_add. do 2 f_equal. lia. }
  assert (E3 : c ^ ma * c ^ (S mb) = c ^ (S (ma + mb))) by (rewrite <- pow_add; f_equal; lia).
  assert (E4 : c ^ (S ma) * c ^ mb = c ^ (S (ma + mb))) by (rewrite <- pow_add; f_equal; lia).
  rewrite plus_INR.
  transitivity ((c ^ ma * c ^ S mb) * (A * B1) + (c ^ S ma * c ^ mb) * (A1 * B) - (INR mb * (c ^ ma * c ^ (mb - 1)) + INR ma * (c ^ (ma - 1) * c ^ mb)) * sin phi * (A * B)); [ring|].
  rewrite E1, E2, E3, E4. ring.
Qed.
Lemma three_at phi : h_east m n phi * both phi + INR m * (h_north m n phi * both_over phi) = INR m * three' (sin phi).
Proof.
  rewrite both_eq. unfold h_east, h_north, both_over, three'. rewrite !Nat.add_1_r.
  assert (W : 1 - sin phi ^ 2 = cos phi ^ 2) by (pose proof (sin2_cos2 phi) as S; unfold Rsqr in S; cbn; lra). rewrite W, <- !pow_mult.
  set (c := cos phi). set (A := rodrigues na ma _). set (B := rodrigues nb mb _). set (A1 := rodrigues na (S ma) _). set (B1 := rodrigues nb (S mb) _). set (G := rodrigues n m _). set (G1 := rodrigues n (S m) _).
  assert (E1 : c ^ (m - 1) * c ^ S (ma + mb) = c ^ (2 * q)) by (rewrite <- pow_add; f_equal; lia).
  assert (E2 : c ^ (m - 1) * c ^ (ma + mb - 1) = c ^ (2 * (q - 1))) by (rewrite <- pow_add; f_equal; lia).
  assert (E3 : c ^ S m * c ^ (ma + mb - 1) = c ^ (2 * q)) by (rewrite <- pow_add; f_equal; lia).
  assert (E4 : 2 * INR q = INR (ma + mb) + INR m) by (rewrite <- plus_INR, Hq, mult_INR; cbn; ring).
  rewrite E4, <- E2.
  transitivity (INR m * ((c ^ (m - 1) * c ^ S (ma + mb)) * (A1 * B + A * B1) * G - INR (ma + mb) * (c ^ (m - 1) * c ^ (ma + mb - 1)) * sin phi * (A * B) * G
    + (c ^ S m * c ^ (ma + mb - 1)) * G1 * (A * B) - INR m * (c ^ (m - 1) * c ^ (ma + mb - 1)) * sin phi * G * (A * B))); [ring|].
  rewrite E1, E3. ring.
Qed.
Lemma dot_triple : dot h_east N m n both + INR m * dot h_north N m n both_over = 0.
Proof.
  assert (Z : mean three' = 0).
  { apply (mean_exact (na + nb + n) three); [apply poly_three|apply three_derive| |]; unfold three; (destruct q as [|q']; [lia|]); [replace (1 - 1 ^ 2) with 0 by ring|replace (1 - (-1) ^ 2) with 0 by ring]; cbn [pow]; ring. }
  assert (P : polyf (na + nb + n - 1) three').
  { apply (poly_ext _ (Derive three)); [apply poly_Derive, poly_three|]. intros z. symmetry. apply is_derive_unique, three_derive. }
  rewrite <- (quadrature N HN _ _ P) in Z by lia. unfold dot. rewrite <- Rsum_tab_scal, <- Rsum_tab_plus.
  transitivity (INR m * Rsum (tab N (fun i => row_weight N i * three' (sin (row_lat N i))))); [|rewrite Z; ring].
  rewrite <- Rsum_tab_scal. f_equal. apply tab_ext. intros i Hi. pose proof (three_at (row_lat N i)) as T.
  transitivity (row_weight N i * (h_east m n (row_lat N i) * both (row_lat N i) + INR m * (h_north m n (row_lat N i) * both_over (row_lat N i)))); [ring|]. rewrite T. ring.
Qed.
End Triple.

(** ** Products of two waves on a circle of latitude *)
Lemma swing_product a b x y : swing a x * swing b y = / 2 * swing (Cmult a b) (x + y) + / 2 * swing (Cmult a (Cconj b)) (x - y).
Proof. unfold swing, Cmult, Cconj. destruct a as [p q], b as [s t]. cbn. rewrite cos_plus, sin_plus, cos_minus, sin_minus. field. Qed.
Lemma swing_product_derive a b x y u v :
  v * (swing a x * swing (i_times b) y) + u * (swing (i_times a) x * swing b y)
  = / 2 * ((u + v) * swing (i_times (Cmult a b)) (x + y)) + / 2 * ((u - v) * swing (i_times (Cmult a (Cconj b))) (x - y)).
Proof. unfold swing, Cmult, Cconj, i_times. destruct a as [p q], b as [s t]. cbn. rewrite cos_plus, sin_plus, cos_minus, sin_minus. field. Qed.
Definition gap (ma mb : nat) : nat := if Nat.leb mb ma then (ma - mb)%nat else (mb - ma)%nat.
Definition across (ma mb : nat) (a b : C) : C := if Nat.leb mb ma then Cmult a (Cconj b) else Cconj (Cmult a (Cconj b)).
Lemma wave_product ma mb a b lam : swing a (INR ma * lam) * swing b (INR mb * lam)
  = / 2 * swing (Cmult a b) (INR (ma + mb) * lam) + / 2 * swing (across ma mb a b) (INR (gap ma mb) * lam).
Proof.
  rewrite swing_product. unfold gap, across. rewrite plus_INR. destruct (Nat.leb_spec mb ma).
  - rewrite minus_INR by lia. replace (INR ma * lam + INR mb * lam) with ((INR ma + INR mb) * lam) by ring. replace (INR ma * lam - INR mb * lam) with ((INR ma - INR mb) * lam) by ring. reflexivity.
  - rewrite minus_INR by lia. rewrite swing_conj. replace (INR ma * lam + INR mb * lam) with ((INR ma + INR mb) * lam) by ring. replace (INR ma * lam - INR mb * lam) with (- ((INR mb - INR ma) * lam)) by ring. reflexivity.
Qed.
Lemma wave_product_derive ma mb a b lam :
  INR mb * (swing a (INR ma * lam) * swing (i_times b) (INR mb * lam)) + INR ma * (swing (i_times a) (INR ma * lam) * swing b (INR mb * lam))
  = / 2 * (INR (ma + mb) * swing (i_times (Cmult a b)) (INR (ma + mb) * lam)) + / 2 * (INR (gap ma mb) * swing (i_times (across ma mb a b)) (INR (gap ma mb) * lam)).
Proof.
  rewrite swing_product_derive. unfold gap, across. rewrite !plus_INR. destruct (Nat.leb_spec mb ma).
  - rewrite minus_INR by lia. replace (INR ma * lam + INR mb * lam) with ((INR ma + INR mb) * lam) by ring. replace (INR ma * lam - INR mb * lam) with ((INR ma - INR mb) * lam) by ring. reflexivity.
  - rewrite minus_INR by lia. replace (INR ma * lam + INR mb * lam) with ((INR ma + INR mb) * lam) by ring. replace (INR ma * lam - INR mb * lam) with (- ((INR mb - INR ma) * lam)) by ring.
    f_equal. f_equal. generalize (Cmult a (Cconj b)) ((INR mb - INR ma) * lam). intros c t. unfold swing, i_times, Cconj. destruct c. cbn. rewrite cos_neg, sin_neg. ring.
Qed.

Section Products.
Variables N M D nt n : nat.
Variable r : R.
Hypothesis HN : (2 <= N)%nat.
Hypothesis HnD : (n <= D)%nat.
Hypothesis HDN : (2 * D < N)%nat.
Hypothesis HDM : (2 * D < M)%nat.
Hypothesis HnN : (2 * n + D <= N)%nat.
Hypothesis HnM : (2 * n + D < M)%nat.
Hypothesis Hr : 0 < r.
Let L := nspec nt.
Let o := order nt.
Let d := degree nt.
Let field (h : part) (a : list C) (i j : nat) : R := sum_at h a (row_lat N i) (col_lon M j).
Let HM : (0 < M)%nat.
Proof. lia. Qed.

(** the terms of two harmonics in the product of a field and its gradient *)
Section Pairs.
Variables ma na mb nb m l : nat.
Hypothesis Ha : (ma <= na)%nat.
Hypothesis Hb : (mb <= nb)%nat.
Hypothesis Hm : (m <= l)%nat.
Hypothesis HlN : (na + nb + l <= N)%nat.
Hypothesis HlM : (ma + mb + m < M)%nat.
Lemma wave_zero c k : k = (ma + mb)%nat \/ k = gap ma mb ->
  Cplus (Cmult (0, 1) (corr h_east N M m l (fun i j => both ma na mb nb (row_lat N i) * swing c (INR k * col_lon M j))))
        (corr h_north N M m l (fun i j => (INR k * both_over ma na mb nb (row_lat N i)) * swing (i_times c) (INR k * col_lon M j))) = RtoC 0.
Proof.
  intros K. assert (K' : (k <= ma + mb)%nat /\ exists q, (ma + mb + k = 2 * q)%nat).
  { destruct K as [->| ->]; [split; [lia|exists (ma + mb)%nat; lia]|]. unfold gap. destruct (Nat.leb_spec mb ma); split; try lia; [exists ma|exists mb]; lia. }
  destruct K' as [K1 [q Q]]. rewrite (corr_mode h_east N M m l (both ma na mb nb)) by lia. rewrite (corr_mode h_north N M m l (fun phi => INR k * both_over ma na mb nb phi)) by lia.
  destruct (Nat.eqb_spec k m) as [->|]; [|ring].
  assert (E : dot h_north N m l (fun phi => INR m * both_over ma na mb nb phi) = INR m * dot h_north N m l (both_over ma na mb nb)).
  { unfold dot. rewrite <- Rsum_tab_scal. f_equal. apply tab_ext. intros i Hi. ring. }
  rewrite E. destruct (Nat.eq_dec m 0) as [->|Z].
  - rewrite dot_east_0. change (INR 0) with 0. rewrite !Rmult_0_l, !Rmult_0_r. ring.
  - assert (T : INR m * dot h_north N m l (both_over ma na mb nb) = - dot h_east N m l (both ma na mb nb)).
    { pose proof (dot_triple N ma na mb nb m l HN Ha Hb ltac:(lia) HlN q Q ltac:(lia)). lra. }
    rewrite T. unfold lead. destruct (Nat.eqb_spec m 0); [contradiction|]. rewrite i_times_mult.
    replace (half m * - dot h_east N m l (both ma na mb nb)) with (- (half m * dot h_east N m l (both ma na mb nb))) by ring. rewrite RtoC_opp. ring.
Qed.
Lemma pair_zero a b :
  Cplus (Cmult (0, 1) (corr h_east N M m l (fun i j => both ma na mb nb (row_lat N i) * (swing a (INR ma * col_lon M j) * swing b (INR mb * col_lon M j)))))
        (corr h_north N M m l (fun i j => both_over ma na mb nb (row_lat N i)
           * (INR mb * (swing a (INR ma * col_lon M j) * swing (i_times b) (INR mb * col_lon M j)) + INR ma * (swing (i_times a) (INR ma * col_lon M j) * swing b (INR mb * col_lon M j))))) = RtoC 0.
Proof.
  rewrite (corr_ext h_east N M m l _ (fun i j => / 2 * (both ma na mb nb (row_lat N i) * swing (Cmult a b) (INR (ma + mb) * col_lon M j))
     + / 2 * (both ma na mb nb (row_lat N i) * swing (across ma mb a b) (INR (gap ma mb) * col_lon M j)))) by (intros; rewrite wave_product; ring).
  rewrite (corr_ext h_north N M m l _ (fun i j => / 2 * ((INR (ma + mb) * both_over ma na mb nb (row_lat N i)) * swing (i_times (Cmult a b)) (INR (ma + mb) * col_lon M j))
     + / 2 * ((INR (gap ma mb) * both_over ma na mb nb (row_lat N i)) * swing (i_times (across ma mb a b)) (INR (gap ma mb) * col_lon M j)))) by (intros; rewrite wave_product_derive; ring).
  rewrite !corr_lin.
  pose proof (wave_zero (Cmult a b) (ma + mb) (or_introl eq_refl)) as Z1. pose proof (wave_zero (across ma mb a b) (gap ma mb) (or_intror eq_refl)) as Z2.
  set (p1 := corr h_east N M m l (fun i j => both ma na mb nb (row_lat N i) * swing (Cmult a b) (INR (ma + mb) * col_lon M j))) in *.
  set (p2 := corr h_east N M m l (fun i j => both ma na mb nb (row_lat N i) * swing (across ma mb a b) (INR (gap ma mb) * col_lon M j))) in *.
  match goal with |- Cplus _ (Cplus (Cmult _ ?x) (Cmult _ ?y)) = _ => set (p3 := x) in *; set (p4 := y) in * end.
  transitivity (Cplus (Cmult (RtoC (/ 2)) (Cplus (Cmult (0, 1) p1) p3)) (Cmult (RtoC (/ 2)) (Cplus (Cmult (0, 1) p2) p4))); [ring|]. rewrite Z1, Z2. ring.
Qed.
End Pairs.
Lemma over_east ma na mb nb phi : h_value ma na phi * h_east mb nb phi = INR mb * both_over ma na mb nb phi.
Proof.
  unfold h_value, h_east, both_over. destruct mb as [|b]; [cbn [INR]; ring|]. replace (ma + S b - 1)%nat with (ma + (S b - 1))%nat by lia. rewrite pow_add. ring.
Qed.
Lemma both_over_sym ma na mb nb phi : both_over ma na mb nb phi = both_over mb nb ma na phi.
Proof. unfold both_over. rewrite (Nat.add_comm mb ma). ring. Qed.
Lemma symmetrise f : Rsum (tab L (fun a => Rsum (tab L (fun b => f a b)))) = Rsum (tab L (fun a => Rsum (tab L (fun b => / 2 * (f a b + f b a))))).
Proof.
  rewrite (tab_ext L (fun a => Rsum (tab L (fun b => / 2 * (f a b + f b a)))) (fun a => / 2 * Rsum (tab L (fun b => f a b)) + / 2 * Rsum (tab L (fun b => f b a)))).
  2:{ intros a Ha. rewrite Rsum_tab_scal, (Rsum_tab_plus L (fun b => f a b) (fun b => f b a)). ring. }
  rewrite Rsum_tab_plus, !Rsum_tab_scal, (Rsum_tab_swap L L (fun a b => f b a)). field.
Qed.
Lemma Rsum_mult f g : Rsum (tab L f) * Rsum (tab L g) = Rsum (tab L (fun a => Rsum (tab L (fun b => f a * g b)))).
Proof. rewrite <- Rsum_tab_scal_r. f_equal. apply tab_ext. intros a Ha. rewrite Rsum_tab_scal. reflexivity. Qed.
(** a field times its gradient has no vorticity *)
Lemma own_zero z c psi m l : truncated n nt z -> length psi = L -> (forall k, (k < L)%nat -> coef psi k = Cmult (RtoC c) (coef z k)) -> (m <= l)%nat -> (l <= D)%nat ->
  Cplus (Cmult (0, 1) (corr h_east N M m l (fun i j => field h_value z i j * field h_north psi i j)))
        (corr h_north N M m l (fun i j => field h_value z i j * field h_east (map i_times psi) i j)) = RtoC 0.
Proof.
  intros [Lz Z] Lp P Hm Hl.
  set (sw := fun k j => swing (coef z k) (INR (o k) * col_lon M j)). set (sw' := fun k j => swing (i_times (coef z k)) (INR (o k) * col_lon M j)).
  assert (SP : forall k j, (k < L)%nat -> swing (coef psi k) (INR (o k) * col_lon M j) = c * sw k j) by (intros k j Hk; rewrite P by exact Hk; apply swing_scale).
  assert (SP' : forall k j, (k < L)%nat -> swing (i_times (coef psi k)) (INR (o k) * col_lon M j) = c * sw' k j).
  { intros k j Hk. rewrite P by exact Hk. unfold sw'. rewrite <- swing_scale. f_equal. rewrite !i_times_mult. ring. }
  set (T1 := fun a b i j => c / 2 * (both (o a) (d a) (o b) (d b) (row_lat N i) * (sw a j * sw b j))).
  set (T2 := fun a b i j => c / 2 * (both_over (o a) (d a) (o b) (d b) (row_lat N i) * (INR (o b) * (sw a j * sw' b j) + INR (o a) * (sw' a j * sw b j)))).
  rewrite (corr_ext h_east N M m l _ (fun i j => Rsum (tab L (fun a => Rsum (tab L (fun b => T1 a b i j)))))).
  2:{ intros i j Hi Hj. unfold field. rewrite !(sum_at_eq nt) by assumption. rewrite Rsum_mult, symmetrise. f_equal. apply tab_ext. intros a Ha. f_equal. apply tab_ext. intros b Hb.
      fold o d. rewrite !SP by assumption. unfold T1, both. fold (sw a j) (sw b j). field. }
  rewrite (corr_ext h_north N M m l _ (fun i j => Rsum (tab L (fun a => Rsum (tab L (fun b => T2 a b i j)))))).
  2:{ intros i j Hi Hj. unfold field. rewrite !(sum_at_eq nt) by (rewrite ?map_length; assumption). rewrite Rsum_mult, symmetrise. f_equal. apply tab_ext. intros a Ha. f_equal. apply tab_ext. intros b Hb.
      fold o d. rewrite !coef_i_times, !SP' by assumption. fold (sw a j) (sw b j). unfold T2.
      transitivity (/ 2 * c * ((h_value (o a) (d a) (row_lat N i) * h_east (o b) (d b) (row_lat N i)) * (sw a j * sw' b j) + (h_value (o b) (d b) (row_lat N i) * h_east (o a) (d a) (row_lat N i)) * (sw b j * sw' a j))); [ring|].
      rewrite !over_east. rewrite (both_over_sym (o b)). field. }
  rewrite (corr_sum h_east N M m l L (fun a i j => Rsum (tab L (fun b => T1 a b i j)))), (corr_sum h_north N M m l L (fun a i j => Rsum (tab L (fun b => T2 a b i j)))).
  rewrite <- Csum_scal, <- Csum_plus. apply Csum_zero. intros a Ha.
  rewrite (corr_sum h_east N M m l L (fun b i j => T1 a b i j)), (corr_sum h_north N M m l L (fun b i j => T2 a b i j)).
  rewrite <- Csum_scal, <- Csum_plus. apply Csum_zero. intros b Hb.
  assert (S0 : forall k, (k < L)%nat -> ~ (d k <= n)%nat -> forall j, sw k j = 0 /\ sw' k j = 0).
  { intros k Hk Ne j. unfold sw, sw'. rewrite (Z k Hk ltac:(unfold d in Ne; lia)), i_times_0, swing_0. split; reflexivity. }
  assert (Q : forall h t, (forall i j, t i j = 0) -> corr h N M m l t = RtoC 0).
  { intros h t H. unfold corr, RtoC. apply pairC; [|rewrite <- Ropp_0; f_equal]; (apply Rsum_tab_zero; intros i Hi; rewrite Rsum_tab_zero; [unfold Rdiv; ring|]; intros j Hj; rewrite H; ring). }
  destruct (le_dec (d a) n) as [Da|Da].
  2:{ rewrite !Q; [ring| |]; intros i j; unfold T1, T2; destruct (S0 a Ha Da j) as [Q1 Q2]; rewrite ?Q1, ?Q2; ring. }
  destruct (le_dec (d b) n) as [Db|Db].
  2:{ rewrite !Q; [ring| |]; intros i j; unfold T1, T2; destruct (S0 b Hb Db j) as [Q1 Q2]; rewrite ?Q1, ?Q2; ring. }
  pose proof (order_degree nt a Ha) as [Oa _]. pose proof (order_degree nt b Hb) as [Ob _]. fold o d in Oa, Ob.
  assert (E1 : corr h_east N M m l (T1 a b) = Cmult (RtoC (c / 2)) (corr h_east N M m l (fun i j => both (o a) (d a) (o b) (d b) (row_lat N i) * (sw a j * sw b j)))).
  { rewrite <- (Cplus_0_r (Cmult _ _)). rewrite <- (Cmult_0_l (corr h_east N M m l (fun i j => 0))). rewrite <- corr_lin. apply corr_ext. intros i j _ _. unfold T1. ring. }
  assert (E2 : corr h_north N M m l (T2 a b) = Cmult (RtoC (c / 2)) (corr h_north N M m l (fun i j => both_over (o a) (d a) (o b) (d b) (row_lat N i) * (INR (o b) * (sw a j * sw' b j) + INR (o a) * (sw' a j * sw b j))))).
  { rewrite <- (Cplus_0_r (Cmult _ _)). rewrite <- (Cmult_0_l (corr h_north N M m l (fun i j => 0))). rewrite <- corr_lin. apply corr_ext. intros i j _ _. unfold T2. ring. }
  change (fun i j => T1 a b i j) with (T1 a b). change (fun i j => T2 a b i j) with (T2 a b). rewrite E1, E2.
  pose proof (pair_zero (o a) (d a) (o b) (d b) m l Oa Ob Hm ltac:(lia) ltac:(lia) (coef z a) (coef z b)) as PZ.
  change (Cplus (Cmult (0, 1) (corr h_east N M m l (fun i j => both (o a) (d a) (o b) (d b) (row_lat N i) * (sw a j * sw b j))))
     (corr h_north N M m l (fun i j => both_over (o a) (d a) (o b) (d b) (row_lat N i) * (INR (o b) * (sw a j * sw' b j) + INR (o a) * (sw' a j * sw b j)))) = RtoC 0) in PZ.
  set (p1 := corr h_east N M m l (fun i j => both (o a) (d a) (o b) (d b) (row_lat N i) * (sw a j * sw b j))) in *.
  match goal with |- Cplus _ (Cmult _ ?x) = _ => set (p2 := x) in * end.
  transitivity (Cmult (RtoC (c / 2)) (Cplus (Cmult (0, 1) p1) p2)); [ring|]. rewrite PZ. ring.
Qed.
(** the sine of the latitude is half the zonal harmonic of degree 1 *)
Hypothesis Hnt : (1 <= nt)%nat.
Hypothesis HD1 : (1 <= D)%nat.
Lemma second_index : (1 < L)%nat /\ o 1%nat = 0%nat /\ d 1%nat = 1%nat.
Proof. unfold L, o, d. destruct nt as [|t]; [lia|]. rewrite nspec_S. split; [lia|]. split; reflexivity. Qed.
Definition sine_coefs : list C := tab (nspec nt) (fun k => if Nat.eqb k 1 then RtoC (/ 2) else RtoC 0).
Lemma sine_length : length sine_coefs = L.
Proof. apply tab_len. Qed.
Lemma coef_sine k : (k < L)%nat -> coef sine_coefs k = if Nat.eqb k 1 then RtoC (/ 2) else RtoC 0.
Proof. intros H. unfold sine_coefs. now rewrite coef_tab. Qed.
Lemma sine_truncated : truncated D nt sine_coefs.
Proof. split; [apply sine_length|]. intros k Hk G. rewrite coef_sine by exact Hk. destruct (Nat.eqb_spec k 1) as [->|]; [|reflexivity]. destruct second_index as [_ [_ E]]. fold d in G. lia. Qed.
Lemma sine_real : zonal_real nt sine_coefs.
Proof. intros k Hk E. rewrite coef_sine by exact Hk. now destruct (Nat.eqb k 1). Qed.
Lemma rodrigues_10 z : rodrigues 1 0 z = 2 * z.
Proof. unfold rodrigues. cbn [Nat.add Derive_n]. apply is_derive_unique. auto_derive; [exact I|]. cbn. ring. Qed.
Lemma rodrigues_11 z : rodrigues 1 1 z = 2.
Proof.
  rewrite <- (is_derive_unique _ _ _ (rodrigues_step 1 0 z)). rewrite (Derive_ext _ (fun t => 2 * t)) by apply rodrigues_10. apply is_derive_unique. auto_derive; [exact I|]. ring.
Qed.
Lemma value_01 phi : h_value 0%nat 1%nat phi = 2 * sin phi.
Proof. unfold h_value. rewrite rodrigues_10. cbn. ring. Qed.
Lemma north_01 phi : h_north 0%nat 1%nat phi = 2 * cos phi.
Proof. unfold h_north. cbn [Nat.add Nat.sub]. rewrite rodrigues_11. change (INR 0) with 0. cbn [pow]. ring. Qed.
Lemma one_term h x c phi lam : length x = L -> (forall k, (k < L)%nat -> coef x k = if Nat.eqb k 1 then RtoC c else RtoC 0) -> sum_at h x phi lam = h 0%nat 1%nat phi * c.
Proof.
  intros X H. destruct second_index as [H1 [O1 D1]]. rewrite (sum_at_eq nt) by exact X. rewrite (Rsum_tab_one L _ 1 H1).
  - unfold o, d in O1, D1. rewrite O1, D1, H by exact H1. cbn [Nat.eqb]. unfold swing. change (INR 0) with 0. rewrite Rmult_0_l, cos_0, sin_0. cbn. ring.
  - intros k Hk K. rewrite H by exact Hk. destruct (Nat.eqb_spec k 1); [contradiction|]. rewrite swing_0. ring.
Qed.
Lemma synthesis_sine : h_synthesis N M sine_coefs = sine_lat N M.
Proof.
  unfold h_synthesis, sample, sine_lat. apply mat_of_ext. intros i j Hi Hj. rewrite (one_term h_value _ (/ 2) _ _ sine_length coef_sine), value_01. unfold row_lat. field.
Qed.
Lemma analysis_sine : h_analysis D N M (sine_lat N M) nt = sine_coefs.
Proof.
  rewrite <- synthesis_sine. apply (resolved_iff N M D nt HN HDN HDM _ sine_length). split; [apply sine_truncated|apply sine_real].
Qed.
Definition sine_psi : list C := potential r sine_coefs.
Lemma psi_length : length sine_psi = L.
Proof. unfold sine_psi. rewrite potential_length. apply sine_length. Qed.
Lemma coef_psi k : (k < L)%nat -> coef sine_psi k = if Nat.eqb k 1 then RtoC (- (r * r / 4)) else RtoC 0.
Proof.
  intros Hk. unfold sine_psi. rewrite (coef_potential nt r) by (exact sine_length || exact Hk). rewrite coef_sine by exact Hk. destruct second_index as [_ [_ E]].
  destruct (Nat.eqb_spec k 1) as [->|]; [|destruct (Nat.eqb (degree nt k) 0); [reflexivity|apply Cmult_0_r]].
  unfold d in E. rewrite E. cbn [Nat.eqb]. rewrite <- RtoC_mult. f_equal. unfold eigenvalue. cbn [INR]. field. lra.
Qed.
Lemma psi_north phi lam : sum_at h_north sine_psi phi lam = - (r * r / 2) * cos phi.
Proof. rewrite (one_term h_north _ (- (r * r / 4)) _ _ psi_length coef_psi), north_01. field. Qed.
Lemma psi_east phi lam : sum_at h_east (map i_times sine_psi) phi lam = 0.
Proof.
  apply (sum_at_zero nt); [rewrite map_length; apply psi_length|]. intros k Hk. rewrite coef_i_times, coef_psi by exact Hk. destruct (Nat.eqb_spec k 1) as [->|]; [left|right; apply i_times_0].
  destruct second_index as [_ [E _]]. unfold o in E. rewrite E. apply east_0.
Qed.

(** the divergence of a flux *)
Lemma flux_coef F x k : length x = L -> (k < L)%nat ->
  coef (flux_divergence (harmonics D N M r) nt (mat_of N M F) x) k
  = if Nat.leb (d k) D then Cmult (RtoC (- / mean_square (o k) (d k) / (r * r)))
      (Cplus (Cmult (0, 1) (corr h_east N M (o k) (d k) (fun i j => F i j * field h_north (potential r x) i j)))
             (corr h_north N M (o k) (d k) (fun i j => F i j * field h_east (map i_times (potential r x)) i j))) else RtoC 0.
Proof.
  intros X Hk. unfold flux_divergence, harmonics. cbn [sh_getuv sh_getvrtdivspec]. unfold h_getvrtdiv. cbn [fst snd]. rewrite coef_coefs by exact Hk. fold o d.
  destruct (Nat.leb (d k) D); [|reflexivity].
  assert (Z : forall h phi lam, sum_at h (potential r (repeat (RtoC 0) (nspec nt))) phi lam = 0).
  { intros h phi lam. apply (sum_at_zero nt); [rewrite potential_length; apply repeat_length|]. intros l Hl. right. now apply potential_zeros. }
  assert (Z' : forall h phi lam, sum_at h (map i_times (potential r (repeat (RtoC 0) (nspec nt)))) phi lam = 0).
  { intros h phi lam. apply (sum_at_zero nt); [rewrite map_length, potential_length; apply repeat_length|]. intros l Hl. right. rewrite coef_i_times, potential_zeros by exact Hl. apply i_times_0. }
  set (w := h_getuv r N M x (repeat (RtoC 0) (nspec nt))).
  assert (U : forall i j, (i < N)%nat -> (j < M)%nat -> mget (mmul (mat_of N M F) (fst w)) i j = - / r * (F i j * field h_north (potential r x) i j) + 0 * 0).
  { intros i j Hi Hj. unfold w, h_getuv, sample. cbn [fst]. rewrite (mget_mmul N M) by (try assumption; apply shaped_mat_of). rewrite !mget_mat_of by assumption. rewrite Z'. unfold field. field. lra. }
  assert (V : forall i j, (i < N)%nat -> (j < M)%nat -> mget (mmul (mat_of N M F) (snd w)) i j = / r * (F i j * field h_east (map i_times (potential r x)) i j) + 0 * 0).
  { intros i j Hi Hj. unfold w, h_getuv, sample. cbn [snd]. rewrite (mget_mmul N M) by (try assumption; apply shaped_mat_of). rewrite !mget_mat_of by assumption. rewrite Z. unfold field. field. lra. }
  rewrite !correlate_corr. rewrite (corr_ext _ _ _ _ _ _ _ U), (corr_ext _ _ _ _ _ _ _ V).
  rewrite (corr_lin h_east N M (o k) (d k) (- / r) 0 (fun i j => F i j * field h_north (potential r x) i j) (fun _ _ => 0)).
  rewrite (corr_lin h_north N M (o k) (d k) (/ r) 0 (fun i j => F i j * field h_east (map i_times (potential r x)) i j) (fun _ _ => 0)).
  rewrite !Cmult_0_l, !Cplus_0_r, i_times_mult.
  set (p1 := corr h_east N M (o k) (d k) (fun i j => F i j * field h_north (potential r x) i j)). set (p2 := corr h_north N M (o k) (d k) (fun i j => F i j * field h_east (map i_times (potential r x)) i j)).
  replace (- / mean_square (o k) (d k) / (r * r)) with (- (/ mean_square (o k) (d k) * (/ r * / r))) by (pose proof (mean_square_pos (o k) (d k) (proj1 (order_degree nt k Hk))); field; lra).
  rewrite !RtoC_opp, !RtoC_mult. ring.
Qed.
Lemma flux_high f x k : (L <= k)%nat -> coef (flux_divergence (harmonics D N M r) nt f x) k = RtoC 0.
Proof. intros H. apply coef_high. unfold flux_divergence, harmonics, h_getvrtdiv. cbn [sh_getvrtdivspec snd]. rewrite coefs_length. exact H. Qed.
Definition sined (h : part) : part := fun m n phi => sin phi * h m n phi.
Lemma sum_at_sined h x phi lam : length x = L -> sum_at (sined h) x phi lam = sin phi * sum_at h x phi lam.
Proof. intros X. rewrite !(sum_at_eq nt) by exact X. rewrite <- Rsum_tab_scal. f_equal. apply tab_ext. intros k Hk. unfold sined. ring. Qed.
Lemma across_sine psi k m l : (k < L)%nat -> o k = m -> d k = l -> (l <= D)%nat -> truncated D nt psi ->
  Cplus (Cmult (0, 1) (corr h_east N M m l (fun i j => sin (row_lat N i) * field h_north psi i j)))
        (corr h_north N M m l (fun i j => sin (row_lat N i) * field h_east (map i_times psi) i j))
  = Cmult (RtoC (- (INR m * mean_square m l))) (i_times (lead m (coef psi k))).
Proof.
  intros Hk Em El Hl T. pose proof (order_degree nt k Hk) as [Hml _]. fold o d in Hml. rewrite Em, El in Hml. pose proof (map_i_truncated D nt psi T) as T'.
  rewrite (corr_ext h_east N M m l _ (fun i j => sum_at (sined h_north) psi (row_lat N i) (col_lon M j))) by (intros; rewrite sum_at_sined by apply T; reflexivity).
  rewrite (corr_ext h_north N M m l _ (fun i j => sum_at (sined h_east) (map i_times psi) (row_lat N i) (col_lon M j))) by (intros; rewrite sum_at_sined by apply T'; reflexivity).
  rewrite <- (Cmult_1_l (corr h_north _ _ _ _ _)).
  pose proof (two_fields N M D nt HN HDN HDM k m l Hk Em El Hl h_east (sined h_north) psi h_north (sined h_east) (map i_times psi) (map i_times psi) (0, 1) (RtoC 1)
    (fun q => half m * (dot h_east N m l (sined h_north m (d q)) + dot h_north N m l (sined h_east m (d q)))) T T' T') as E.
  cbv beta in E. rewrite E; clear E.
  - rewrite El. unfold sined. rewrite dot_across by lia. rewrite mean_square_eq, coef_i_times.
    unfold lead. destruct (Nat.eqb_spec m 0) as [->|]; [change (INR 0) with 0|]; destruct (coef psi k) as [x y]; unfold i_times, Cmult, RtoC; cbn; apply pairC; ring.
  - intros q Hq Eq. rewrite coef_i_times. unfold lead. destruct (Nat.eqb_spec m 0) as [->|]; destruct (coef psi q) as [x y].
    + assert (E1 : dot h_east N 0 l (sined h_north 0%nat (degree nt q)) = 0) by apply dot_east_0.
      assert (E2 : dot h_north N 0 l (sined h_east 0%nat (degree nt q)) = 0) by (unfold dot; apply Rsum_tab_zero; intros i Hi; unfold sined; rewrite east_0; ring).
      fold d in E1, E2 |- *. rewrite E1, E2. unfold i_times, Cmult, Cplus, RtoC. cbn. apply pairC; ring.
    + fold d. unfold i_times, Cmult, Cplus, RtoC. cbn. apply pairC; ring.
  - intros q Hq Eq Dq Nq. fold d in Dq, Nq |- *. pose proof (order_degree nt q Hq) as [Oq _]. fold o d in Oq, Eq. unfold sined. rewrite dot_across, orthogonal by lia. ring.
Qed.
Lemma degree_truncated_n z : of_degree nt n z -> truncated n nt z.
Proof. intros [Lz Z]. split; [exact Lz|]. intros k Hk G. apply Z; [exact Hk|lia]. Qed.
Lemma degree_truncated z : of_degree nt n z -> truncated D nt z.
Proof. intros [Lz Z]. split; [exact Lz|]. intros k Hk G. apply Z; [exact Hk|lia]. Qed.
Lemma harmonics_products : (1 <= n)%nat -> exact_products (harmonics D N M r) N M nt n.
Proof.
  intros Hn1.
  assert (RES : forall z, of_degree nt n z -> resolved (harmonics D N M r) nt z -> zonal_real nt z) by (intros z [Lz Z] Rz; now apply (resolved_eq N M D nt r HN HDN HDM z Lz)).
  assert (PSI : forall z k, of_degree nt n z -> (k < L)%nat -> coef (potential r z) k = Cmult (RtoC (- / eigenvalue r n)) (coef z k)).
  { intros z k [Lz Z] Hk. rewrite (coef_potential nt r) by assumption. destruct (Nat.eq_dec (degree nt k) n) as [E|E].
    - rewrite E. destruct (Nat.eqb_spec n 0); [lia|reflexivity].
    - rewrite (Z k Hk E), !Cmult_0_r. now destruct (Nat.eqb (degree nt k) 0). }
  split.
  - cbn [harmonics sh_spectogrd sh_grdtospec]. rewrite analysis_sine. apply synthesis_sine.
  - intros z k Dz Rz. destruct (Nat.lt_ge_cases k L) as [Hk|Hk]; [|now apply flux_high].
    cbn [harmonics sh_spectogrd]. unfold h_synthesis, sample. pose proof (flux_coef (fun i j => sum_at h_value z (row_lat N i) (col_lon M j)) z k (proj1 Dz) Hk) as E. cbv beta in E. rewrite E; clear E.
    destruct (Nat.leb_spec (d k) D) as [G|G]; [|reflexivity]. pose proof (order_degree nt k Hk) as [Ok _].
    pose proof (own_zero z (- / eigenvalue r n) (potential r z) (o k) (d k) (degree_truncated_n z Dz)) as OZ. unfold field in OZ |- *. rewrite OZ; [apply Cmult_0_r|rewrite potential_length; apply Dz| |exact Ok|exact G].
    intros l Hl. now apply PSI.
  - intros k. destruct (Nat.lt_ge_cases k L) as [Hk|Hk]; [|now apply flux_high]. cbn [harmonics sh_grdtospec]. rewrite analysis_sine. unfold sine_lat. rewrite flux_coef by (exact sine_length || exact Hk).
    destruct (Nat.leb_spec (d k) D) as [G|G]; [|reflexivity]. pose proof (order_degree nt k Hk) as [Ok _]. fold o d in Ok.
    rewrite (corr_ext h_east _ _ _ _ _ (fun i j => (fun phi => - (r * r / 2) * (sin phi * cos phi)) (row_lat N i) * swing (RtoC 1) (INR 0 * col_lon M j))).
    2:{ intros i j _ _. unfold field. fold sine_psi. rewrite psi_north. unfold swing. change (INR 0) with 0. rewrite Rmult_0_l, cos_0, sin_0. unfold row_lat. cbn. ring. }
    rewrite (corr_ext h_north _ _ _ _ _ (fun i j => (fun phi => 0) (row_lat N i) * swing (RtoC 1) (INR 0 * col_lon M j))).
    2:{ intros i j _ _. unfold field. fold sine_psi. rewrite psi_east. ring. }
    rewrite (corr_mode h_east N M (o k) (d k) (fun phi => - (r * r / 2) * (sin phi * cos phi)) (RtoC 1) 0) by lia. rewrite (corr_mode h_north N M (o k) (d k) (fun _ => 0) (RtoC 1) 0) by lia.
    destruct (Nat.eqb_spec 0 (o k)) as [E|E]; [|ring]. rewrite <- E, dot_east_0.
    assert (dot h_north N 0 (d k) (fun _ => 0) = 0) as -> by (unfold dot; apply Rsum_tab_zero; intros; ring). rewrite !Rmult_0_r. ring.
  - intros z k Dz Rz Hk. change (sine_lat N M) with (mat_of N M (fun i (_ : nat) => sin (row_lat N i))). rewrite flux_coef by (apply Dz || exact Hk). pose proof (degree_truncated z Dz) as T. pose proof (RES z Dz Rz) as ZR.
    destruct (Nat.leb_spec (d k) D) as [G|G]; [|rewrite (proj2 T k Hk G); symmetry; apply Cmult_0_r].
    pose proof (across_sine (potential r z) k (o k) (d k) Hk eq_refl eq_refl G (potential_truncated D nt r z T)) as E. cbv beta. rewrite E; clear E. pose proof (mean_square_pos (o k) (d k) (proj1 (order_degree nt k Hk))) as MS. rewrite PSI by assumption.
    assert (E : lead (o k) (Cmult (RtoC (- / eigenvalue r n)) (coef z k)) = Cmult (RtoC (- / eigenvalue r n)) (coef z k)).
    { rewrite <- (lead_real nt z k ZR Hk). fold o. unfold lead. destruct (Nat.eqb (o k) 0); destruct (coef z k) as [x y]; unfold Cmult, RtoC; cbn; apply pairC; ring. }
    rewrite E. assert (0 < INR n) by (apply lt_0_INR; lia). fold o. unfold eigenvalue. destruct (coef z k) as [x y]. unfold i_times, Cmult, RtoC, Re, Im. cbn [fst snd]. apply pairC; field; repeat split; try lra; nra.
  - intros z k Dz Rz Hk. pose proof (degree_truncated z Dz) as T. pose proof (RES z Dz Rz) as ZR. cbn [harmonics sh_grdtospec sh_spectogrd]. rewrite analysis_sine. unfold h_synthesis, sample.
    pose proof (flux_coef (fun i j => sum_at h_value z (row_lat N i) (col_lon M j)) sine_coefs k sine_length Hk) as E. cbv beta in E. rewrite E; clear E.
    destruct (Nat.leb_spec (d k) D) as [G|G]; [|rewrite (proj2 T k Hk G); symmetry; apply Cmult_0_r].
    pose proof (field_value N M D nt HN HDN HDM k (o k) (d k) Hk eq_refl eq_refl G z T) as FV. cbv beta in FV. pose proof (lead_real nt z k ZR Hk) as LR. fold o in LR. rewrite LR in FV.
    rewrite (corr_ext h_north _ _ _ _ _ (fun i j => 0 * (sum_at h_value z (row_lat N i) (col_lon M j)) + 0 * 0)) by (intros i j _ _; unfold field; fold sine_psi; rewrite psi_east; ring).
    rewrite (corr_lin h_north N M (o k) (d k) 0 0 (fun i j => sum_at h_value z (row_lat N i) (col_lon M j)) (fun _ _ => 0)), !Cmult_0_l, !Cplus_0_r.
    assert (E : corr h_east N M (o k) (d k) (fun i j => sum_at h_value z (row_lat N i) (col_lon M j) * field h_north (potential r sine_coefs) i j)
      = Cmult (RtoC (- (r * r / 2) * INR (o k))) (corr h_value N M (o k) (d k) (fun i j => sum_at h_value z (row_lat N i) (col_lon M j)))).
    { unfold corr, Cmult, RtoC. cbn [fst snd].
      assert (Q : forall tr, Rsum (tab N (fun i => row_weight N i * h_east (o k) (d k) (row_lat N i) * (Rsum (tab M (fun j => sum_at h_value z (row_lat N i) (col_lon M j) * field h_north (potential r sine_coefs) i j * tr (INR (o k) * col_lon M j))) / INR M)))
        = - (r * r / 2) * INR (o k) * Rsum (tab N (fun i => row_weight N i * h_value (o k) (d k) (row_lat N i) * (Rsum (tab M (fun j => sum_at h_value z (row_lat N i) (col_lon M j) * tr (INR (o k) * col_lon M j))) / INR M)))).
      { intros tr. rewrite <- Rsum_tab_scal. f_equal. apply tab_ext. intros i Hi.
        rewrite (tab_ext M _ (fun j => - (r * r / 2) * cos (row_lat N i) * (sum_at h_value z (row_lat N i) (col_lon M j) * tr (INR (o k) * col_lon M j)))) by (intros j Hj; unfold field; fold sine_psi; rewrite psi_north; ring).
        rewrite Rsum_tab_scal. unfold h_east, h_value. destruct (o k) as [|m']; [change (INR 0) with 0; unfold Rdiv; ring|].
        replace (S m' - 1)%nat with m' by lia. cbn [pow]. unfold Rdiv. ring. }
      rewrite (Q cos), (Q sin). apply pairC; ring. }
    rewrite E, FV. pose proof (mean_square_pos (o k) (d k) (proj1 (order_degree nt k Hk))) as MS. fold o. destruct (coef z k) as [x y]. unfold Cmult, RtoC. cbn [fst snd]. apply pairC; field; lra.
Qed.
End Products.
