(** The transforms of Spec_Harmonics have the symmetries of the sphere. *)
From Coq Require Export String.
From Verif Require Import Base Model_Grid Model_Spectral Spec_Spectral Spec_Calculus Spec_Sym Spec_Symmetry Spec_SymForcing Spec_Relax Spec_Harmonics.
From Verif Require Import Proofs_Base Proofs_Trig Proofs_Spectral Proofs_Instance Proofs_State Proofs_Sym Proofs_Symmetry Proofs_FourierSym Proofs_Poly Proofs_Legendre Proofs_HarmQuad Proofs_HarmSum Proofs_Harmonics.
From Coquelicot Require Import Coquelicot.
From Coq Require Import List Lia Lra.
Import ListNotations.
Open Scope R_scope.

Section Symmetries.
Variables N M D nt : nat.
Variable r : R.
Hypothesis HN : (2 <= N)%nat.
Hypothesis HM : (0 < M)%nat.
Hypothesis Hr : 0 < r.
Let L := nspec nt.
Let o := order nt.
Let d := degree nt.

(** coefficients *)
Lemma coefs_weigh w c e : (forall k, (k < L)%nat -> e (o k) (d k) = Cmult (w k) (c (o k) (d k))) -> coefs D nt e = weigh w (coefs D nt c).
Proof.
  intros H. apply (coef_ext L); [apply coefs_length|rewrite weigh_length; apply coefs_length|]. intros k Hk.
  rewrite coef_weigh by (rewrite coefs_length; exact Hk). rewrite !coef_coefs by exact Hk. fold o d. rewrite H by exact Hk.
  destruct (Nat.leb (d k) D); [ring|]. now rewrite Cmult_0_r.
Qed.
Lemma potential_weigh w x : length x = L -> potential r (weigh w x) = weigh w (potential r x).
Proof.
  intros X. apply (coef_ext L); [now rewrite potential_length, weigh_length|now rewrite weigh_length, potential_length|]. intros k Hk.
  rewrite coef_weigh by (now rewrite potential_length, X). rewrite !(coef_potential nt r) by (rewrite ?weigh_length; assumption).
  rewrite coef_weigh by now rewrite X. destruct (Nat.eqb (degree nt k) 0); [symmetry; apply Cmult_0_r|ring].
Qed.
Lemma i_weigh w x : map i_times (weigh w x) = weigh w (map i_times x).
Proof.
  apply (coef_ext (length x)); [now rewrite map_length, weigh_length|now rewrite weigh_length, map_length|]. intros k Hk.
  rewrite coef_i_times, !coef_weigh, coef_i_times by (rewrite ?map_length; assumption). rewrite !i_times_mult. ring.
Qed.
Lemma sum_at_weigh h h' w x phi lam phi' lam' : length x = L ->
  (forall k c, (k < L)%nat -> h (o k) (d k) phi * swing (Cmult (w k) c) (INR (o k) * lam) = h' (o k) (d k) phi' * swing c (INR (o k) * lam')) ->
  sum_at h (weigh w x) phi lam = sum_at h' x phi' lam'.
Proof.
  intros X H. rewrite !(sum_at_eq nt) by (rewrite ?weigh_length; exact X). f_equal. apply tab_ext. intros k Hk. rewrite coef_weigh by now rewrite X. now apply H.
Qed.

(** rotation about the axis *)
Definition east_of (j : nat) : nat := ((j + 1) mod M)%nat.
Lemma M_pos' : 0 < INR M. Proof. now apply lt_0_INR. Qed.
Lemma turn_lon j : (j < M)%nat -> exists q, col_lon M j + 2 * PI / INR M = col_lon M (east_of j) + 2 * INR q * PI.
Proof.
  intros Hj. pose proof M_pos'. unfold east_of, col_lon. destruct (Nat.eq_dec (j + 1) M) as [E|E].
  - exists 1%nat. rewrite E, Nat.mod_same by lia. assert (INR j = INR M - 1) as -> by (rewrite <- E, plus_INR; cbn; ring). cbn. field. lra.
  - exists 0%nat. rewrite Nat.mod_small by lia. rewrite plus_INR. cbn. field. lra.
Qed.
Lemma turn_cos_sin m j : (j < M)%nat -> cos (INR m * (col_lon M j + 2 * PI / INR M)) = cos (INR m * col_lon M (east_of j))
  /\ sin (INR m * (col_lon M j + 2 * PI / INR M)) = sin (INR m * col_lon M (east_of j)).
Proof.
  intros Hj. destruct (turn_lon j Hj) as [q ->].
  replace (INR m * (col_lon M (east_of j) + 2 * INR q * PI)) with (INR m * col_lon M (east_of j) + 2 * INR (m * q) * PI) by (rewrite mult_INR; ring).
  now rewrite cos_period, sin_period.
Qed.
Lemma swing_add c a b : swing (Cmult (cos b, sin b) c) a = swing c (a + b).
Proof. unfold swing. destruct c as [x y]. cbn. rewrite cos_plus, sin_plus. ring. Qed.
Lemma corr_rotate h m n F : corr h N M m n (fun i j => F i (east_of j)) = Cmult (cos (INR m * (2 * PI / INR M)), sin (INR m * (2 * PI / INR M))) (corr h N M m n F).
Proof.
  set (a := INR m * (2 * PI / INR M)). pose proof M_pos'.
  assert (E : forall i j, (j < M)%nat -> F i (east_of j) * cos (INR m * col_lon M j)
      = cos a * (F i (east_of j) * cos (INR m * col_lon M (east_of j))) + sin a * (F i (east_of j) * sin (INR m * col_lon M (east_of j)))
    /\ F i (east_of j) * sin (INR m * col_lon M j)
      = cos a * (F i (east_of j) * sin (INR m * col_lon M (east_of j))) + - sin a * (F i (east_of j) * cos (INR m * col_lon M (east_of j)))).
  { intros i j Hj. destruct (turn_cos_sin m j Hj) as [<- <-].
    replace (INR m * (col_lon M j + 2 * PI / INR M)) with (INR m * col_lon M j + a) by (unfold a; ring). rewrite cos_plus, sin_plus.
    pose proof (sin2_cos2 a) as S. unfold Rsqr in S. set (p := cos (INR m * col_lon M j)). set (q := sin (INR m * col_lon M j)). split.
    - transitivity (F i (east_of j) * p * (sin a * sin a + cos a * cos a)); [rewrite S|]; ring.
    - transitivity (F i (east_of j) * q * (sin a * sin a + cos a * cos a)); [rewrite S|]; ring. }
  assert (R1 : forall i, Rsum (tab M (fun j => F i (east_of j) * cos (INR m * col_lon M j)))
     = cos a * Rsum (tab M (fun j => F i j * cos (INR m * col_lon M j))) + sin a * Rsum (tab M (fun j => F i j * sin (INR m * col_lon M j)))).
  { intros i. rewrite <- (Rsum_permuted M east_of (fun j => F i j * cos (INR m * col_lon M j))) by now apply rotate_permutes.
    rewrite <- (Rsum_permuted M east_of (fun j => F i j * sin (INR m * col_lon M j))) by now apply rotate_permutes.
    rewrite <- !Rsum_tab_scal, <- Rsum_tab_plus. f_equal. apply tab_ext. intros j Hj. now apply E. }
  assert (R2 : forall i, Rsum (tab M (fun j => F i (east_of j) * sin (INR m * col_lon M j)))
     = cos a * Rsum (tab M (fun j => F i j * sin (INR m * col_lon M j))) + - sin a * Rsum (tab M (fun j => F i j * cos (INR m * col_lon M j)))).
  { intros i. rewrite <- (Rsum_permuted M east_of (fun j => F i j * cos (INR m * col_lon M j))) by now apply rotate_permutes.
    rewrite <- (Rsum_permuted M east_of (fun j => F i j * sin (INR m * col_lon M j))) by now apply rotate_permutes.
    rewrite <- !Rsum_tab_scal, <- Rsum_tab_plus. f_equal. apply tab_ext. intros j Hj. now apply E. }
  unfold corr, Cmult. cbn [fst snd].
  rewrite (tab_ext N _ (fun i => cos a * (row_weight N i * h m n (row_lat N i) * (Rsum (tab M (fun j => F i j * cos (INR m * col_lon M j))) / INR M))
     + sin a * (row_weight N i * h m n (row_lat N i) * (Rsum (tab M (fun j => F i j * sin (INR m * col_lon M j))) / INR M)))) by (intros; rewrite R1; unfold Rdiv; ring).
  rewrite (tab_ext N (fun i => row_weight N i * h m n (row_lat N i) * (Rsum (tab M (fun j => F i (east_of j) * sin (INR m * col_lon M j))) / INR M))
     (fun i => cos a * (row_weight N i * h m n (row_lat N i) * (Rsum (tab M (fun j => F i j * sin (INR m * col_lon M j))) / INR M))
     + - sin a * (row_weight N i * h m n (row_lat N i) * (Rsum (tab M (fun j => F i j * cos (INR m * col_lon M j))) / INR M)))) by (intros; rewrite R2; unfold Rdiv; ring).
  rewrite !Rsum_tab_plus, !Rsum_tab_scal. apply pairC; ring.
Qed.
Lemma correlate_rotate h m n f : shaped N M f -> correlate h N M m n (rotate M f) = Cmult (cos (INR m * (2 * PI / INR M)), sin (INR m * (2 * PI / INR M))) (correlate h N M m n f).
Proof.
  intros F. rewrite !correlate_corr, <- corr_rotate. apply corr_ext. intros i j Hi Hj. unfold rotate. now rewrite (mget_relabel _ N M).
Qed.
Lemma sum_at_turn h x i j : length x = L -> (j < M)%nat -> sum_at h (turn nt M x) (row_lat N i) (col_lon M j) = sum_at h x (row_lat N i) (col_lon M (east_of j)).
Proof.
  intros X Hj. apply sum_at_weigh; [exact X|]. intros k c Hk. cbv zeta. fold o. rewrite swing_add. f_equal.
  replace (INR (o k) * col_lon M j + INR (o k) * (2 * PI / INR M)) with (INR (o k) * (col_lon M j + 2 * PI / INR M)) by ring.
  unfold swing. destruct (turn_cos_sin (o k) j Hj) as [-> ->]. reflexivity.
Qed.
Lemma rotate_sample F G : (forall i j, (i < N)%nat -> (j < M)%nat -> F (row_lat N i) (col_lon M j) = G (row_lat N i) (col_lon M (east_of j))) -> sample N M F = rotate M (sample N M G).
Proof.
  intros H. unfold sample. apply (mat_ext N M); [apply shaped_mat_of|apply relabel_shaped, shaped_mat_of|]. intros i j Hi Hj.
  unfold rotate. rewrite (mget_relabel _ N M) by (assumption || apply shaped_mat_of). rewrite !mget_mat_of; [now apply H|assumption| |assumption|assumption].
  apply Nat.mod_upper_bound. lia.
Qed.
Lemma harmonics_rotate : rotation_symmetric (harmonics D N M r) N M nt.
Proof.
  split; cbn [harmonics sh_grdtospec sh_spectogrd sh_getuv sh_getvrtdivspec].
  - intros f F. apply coefs_weigh. intros k Hk. now apply correlate_rotate.
  - intros x X. apply rotate_sample. intros i j Hi Hj. now apply sum_at_turn.
  - intros z e Z E. unfold h_getuv. cbn [fst snd]. unfold turn at 1 2 3 4. rewrite !potential_weigh, !i_weigh by assumption. fold (turn nt M (potential r z)) (turn nt M (potential r e)) (turn nt M (map i_times (potential r z))) (turn nt M (map i_times (potential r e))).
    f_equal; apply rotate_sample; intros i j Hi Hj; rewrite !sum_at_turn by (rewrite ?map_length, ?potential_length; assumption); reflexivity.
  - intros u v U V. unfold h_getvrtdiv. cbn [fst snd]. f_equal; apply coefs_weigh; intros k Hk; rewrite !correlate_rotate by assumption; rewrite !i_times_mult; cbv beta zeta; fold o d; generalize (cos (INR (o k) * (2 * PI / INR M)), sin (INR (o k) * (2 * PI / INR M))) as w; intros w; unfold C in w; ring.
Qed.
Lemma harmonics_gradient_rotates x : length x = nspec nt -> h_getgrad r N M (turn nt M x) = (rotate M (fst (h_getgrad r N M x)), rotate M (snd (h_getgrad r N M x))).
Proof.
  intros X. unfold h_getgrad. cbn [fst snd]. unfold turn at 1. rewrite i_weigh. fold (turn nt M (map i_times x)).
  f_equal; apply rotate_sample; intros i j Hi Hj; rewrite sum_at_turn by (rewrite ?map_length; assumption); reflexivity.
Qed.
(** reflection in the equator *)
Definition parity (h : part) (e : R) : Prop := e * e = 1 /\ forall m n phi, h m n (- phi) = e * (-1) ^ (m + n) * h m n phi.
Lemma sign_sq q : (-1) ^ q * (-1) ^ q = 1.
Proof. rewrite <- Rpow_mult_distr. replace (-1 * -1) with 1 by ring. apply pow1. Qed.
Lemma parity_value : parity h_value 1.
Proof. split; [ring|]. intros m n phi. unfold h_value. rewrite cos_neg, sin_neg, rodrigues_parity, (Nat.add_comm n m). ring. Qed.
Lemma parity_east : parity h_east 1.
Proof. split; [ring|]. intros m n phi. unfold h_east. rewrite cos_neg, sin_neg, rodrigues_parity, (Nat.add_comm n m). ring. Qed.
Lemma parity_north : parity h_north (-1).
Proof.
  split; [ring|]. intros m n phi. unfold h_north. rewrite cos_neg, sin_neg, !rodrigues_parity. replace (n + (m + 1))%nat with (S (m + n)) by lia. rewrite (Nat.add_comm n m). cbn [pow]. ring.
Qed.
Lemma corr_mirror h e s m n F : parity h e -> corr h N M m n (fun i j => s * F (N - 1 - i)%nat j) = Cmult (RtoC (s * e * (-1) ^ (m + n))) (corr h N M m n F).
Proof.
  intros [EE P]. unfold corr, Cmult, RtoC. cbn [fst snd].
  assert (E : forall T, Rsum (tab N (fun i => row_weight N i * h m n (row_lat N i) * (Rsum (tab M (fun j => s * F (N - 1 - i)%nat j * T (INR m * col_lon M j))) / INR M)))
    = s * e * (-1) ^ (m + n) * Rsum (tab N (fun i => row_weight N i * h m n (row_lat N i) * (Rsum (tab M (fun j => F i j * T (INR m * col_lon M j))) / INR M)))).
  { intros T. rewrite <- (Rsum_tab_rev N (fun i => row_weight N i * h m n (row_lat N i) * (Rsum (tab M (fun j => F i j * T (INR m * col_lon M j))) / INR M))).
    rewrite <- Rsum_tab_scal. f_equal. apply tab_ext. intros i Hi. rewrite weight_mirror, row_lat_mirror by assumption. rewrite P.
    rewrite (tab_ext M _ (fun j => s * (F (N - 1 - i)%nat j * T (INR m * col_lon M j)))) by (intros; ring). rewrite Rsum_tab_scal.
    set (q := Rsum _). transitivity (s * (row_weight N i * h m n (row_lat N i) * (q / INR M)) * ((-1) ^ (m + n) * (-1) ^ (m + n)) * (e * e)); [|unfold Rdiv; ring].
    rewrite sign_sq, EE. unfold Rdiv. ring. }
  rewrite (E cos), (E sin). apply pairC; ring.
Qed.
Lemma correlate_mirror h e s m n f : parity h e -> shaped N M f -> correlate h N M m n (mirror s f) = Cmult (RtoC (s * e * (-1) ^ (m + n))) (correlate h N M m n f).
Proof.
  intros P F. rewrite !correlate_corr, <- corr_mirror by assumption. apply corr_ext. intros i j Hi Hj. now apply (mget_mirror s N M).
Qed.
Lemma sum_at_flip h e s x phi lam : parity h e -> length x = L -> sum_at h (flip s nt x) phi lam = s * e * sum_at h x (- phi) lam.
Proof.
  intros [EE P] X. unfold flip. rewrite (sum_at_weigh h (fun m n p => s * e * h m n p) _ x phi lam (- phi) lam X).
  - rewrite !(sum_at_eq nt) by exact X. rewrite <- Rsum_tab_scal. f_equal. apply tab_ext. intros k Hk. ring.
  - intros k c Hk. fold o d. rewrite P. set (w := (-1) ^ (o k + d k)). unfold swing. destruct c as [p q]. unfold Re, Im, Cmult, RtoC. cbn [fst snd].
    transitivity (s * (e * e) * w * h (o k) (d k) phi * (p * cos (INR (o k) * lam) - q * sin (INR (o k) * lam))); [rewrite EE|]; ring.
Qed.
Lemma mirror_sample s F G : (forall phi lam, F phi lam = s * G (- phi) lam) -> sample N M F = mirror s (sample N M G).
Proof.
  intros H. unfold sample. apply (mat_ext N M); [apply shaped_mat_of|apply shaped_mirror, shaped_mat_of|]. intros i j Hi Hj.
  rewrite (mget_mirror s N M) by (assumption || apply shaped_mat_of). rewrite !mget_mat_of by lia. rewrite H, row_lat_mirror by assumption. reflexivity.
Qed.
Lemma harmonics_reflect : reflection_symmetric (harmonics D N M r) N M nt.
Proof.
  pose proof parity_value as PV. pose proof parity_east as PE. pose proof parity_north as PN.
  split; cbn [harmonics sh_grdtospec sh_spectogrd sh_getuv sh_getvrtdivspec].
  - intros s f F. apply coefs_weigh. intros k Hk. fold o d. rewrite (correlate_mirror h_value 1) by assumption. do 2 f_equal. ring.
  - intros s x X. apply mirror_sample. intros phi lam. rewrite (sum_at_flip h_value 1) by assumption. ring.
  - intros z e Z E. unfold h_getuv. cbn [fst snd]. unfold flip at 1 2 3 4. rewrite !potential_weigh, !i_weigh by assumption.
    fold (flip (-1) nt (potential r z)) (flip 1 nt (potential r e)) (flip (-1) nt (map i_times (potential r z))) (flip 1 nt (map i_times (potential r e))).
    f_equal; apply mirror_sample; intros phi lam; rewrite (sum_at_flip h_east 1), (sum_at_flip h_north (-1)) by (try assumption; rewrite ?map_length, ?potential_length; assumption); field; lra.
  - intros s u v U V. unfold h_getvrtdiv. cbn [fst snd]. f_equal; apply coefs_weigh; intros k Hk; fold o d; rewrite (correlate_mirror h_east 1), (correlate_mirror h_north (-1)) by assumption; rewrite !i_times_mult.
    + replace (s * -1 * (-1) ^ (o k + d k)) with (- s * (-1) ^ (o k + d k)) by ring. replace (- s * 1 * (-1) ^ (o k + d k)) with (- s * (-1) ^ (o k + d k)) by ring. ring.
    + replace (- s * -1 * (-1) ^ (o k + d k)) with (s * (-1) ^ (o k + d k)) by ring. replace (s * 1 * (-1) ^ (o k + d k)) with (s * (-1) ^ (o k + d k)) by ring. ring.
Qed.
Lemma harmonics_gradient_reflects s x : length x = nspec nt -> h_getgrad r N M (flip s nt x) = (mirror s (fst (h_getgrad r N M x)), mirror (- s) (snd (h_getgrad r N M x))).
Proof.
  intros X. unfold h_getgrad. cbn [fst snd]. unfold flip at 1. rewrite i_weigh. fold (flip s nt (map i_times x)).
  f_equal; apply mirror_sample; intros phi lam; [rewrite (sum_at_flip h_east 1)|rewrite (sum_at_flip h_north (-1))]; try (rewrite ?map_length; assumption); try apply parity_east; try apply parity_north; field; lra.
Qed.

(** reflected meridians *)
Definition west_of (j : nat) : nat := ((M - j) mod M)%nat.
Lemma west_permutes : permutes M west_of.
Proof.
  unfold west_of. split; [intros; apply Nat.mod_upper_bound; lia|]. intros i j Hi Hj E. destruct i as [|i], j as [|j]; [reflexivity|..].
  - rewrite Nat.sub_0_r, Nat.mod_same, Nat.mod_small in E; lia.
  - rewrite Nat.sub_0_r, Nat.mod_same, Nat.mod_small in E; lia.
  - rewrite !Nat.mod_small in E; lia.
Qed.
Lemma west_lon j : (j < M)%nat -> exists q, col_lon M (west_of j) = - col_lon M j + 2 * INR q * PI.
Proof.
  intros Hj. pose proof M_pos'. unfold west_of, col_lon. destruct j as [|j].
  - exists 0%nat. rewrite Nat.sub_0_r, Nat.mod_same by lia. cbn. field. lra.
  - exists 1%nat. rewrite Nat.mod_small by lia. rewrite minus_INR by lia. cbn [INR]. field. lra.
Qed.
Lemma west_cos_sin m j : (j < M)%nat -> cos (INR m * col_lon M (west_of j)) = cos (INR m * col_lon M j) /\ sin (INR m * col_lon M (west_of j)) = - sin (INR m * col_lon M j).
Proof.
  intros Hj. destruct (west_lon j Hj) as [q ->].
  replace (INR m * (- col_lon M j + 2 * INR q * PI)) with (- (INR m * col_lon M j) + 2 * INR (m * q) * PI) by (rewrite mult_INR; ring).
  now rewrite cos_period, sin_period, cos_neg, sin_neg.
Qed.
Lemma corr_west h s m n F : corr h N M m n (fun i j => s * F i (west_of j)) = Cmult (RtoC s) (Cconj (corr h N M m n F)).
Proof.
  assert (R1 : forall i, Rsum (tab M (fun j => s * F i (west_of j) * cos (INR m * col_lon M j))) = s * Rsum (tab M (fun j => F i j * cos (INR m * col_lon M j)))).
  { intros i. rewrite <- (Rsum_permuted M west_of (fun j => F i j * cos (INR m * col_lon M j))) by exact west_permutes.
    rewrite <- Rsum_tab_scal. f_equal. apply tab_ext. intros j Hj. destruct (west_cos_sin m j Hj) as [-> _]. ring. }
  assert (R2 : forall i, Rsum (tab M (fun j => s * F i (west_of j) * sin (INR m * col_lon M j))) = - s * Rsum (tab M (fun j => F i j * sin (INR m * col_lon M j)))).
  { intros i. rewrite <- (Rsum_permuted M west_of (fun j => F i j * sin (INR m * col_lon M j))) by exact west_permutes.
    rewrite <- Rsum_tab_scal. f_equal. apply tab_ext. intros j Hj. destruct (west_cos_sin m j Hj) as [_ ->]. ring. }
  unfold corr, Cmult, Cconj, RtoC. cbn [fst snd].
  rewrite (tab_ext N _ (fun i => s * (row_weight N i * h m n (row_lat N i) * (Rsum (tab M (fun j => F i j * cos (INR m * col_lon M j))) / INR M)))) by (intros; rewrite R1; unfold Rdiv; ring).
  rewrite (tab_ext N (fun i => row_weight N i * h m n (row_lat N i) * (Rsum (tab M (fun j => s * F i (west_of j) * sin (INR m * col_lon M j))) / INR M))
     (fun i => - s * (row_weight N i * h m n (row_lat N i) * (Rsum (tab M (fun j => F i j * sin (INR m * col_lon M j))) / INR M)))) by (intros; rewrite R2; unfold Rdiv; ring).
  rewrite !Rsum_tab_scal. apply pairC; ring.
Qed.
Lemma correlate_west h m n f : shaped N M f -> correlate h N M m n (westward M f) = Cconj (correlate h N M m n f)
  /\ correlate h N M m n (mscale (-1) (westward M f)) = Cmult (RtoC (-1)) (Cconj (correlate h N M m n f)).
Proof.
  intros F. rewrite !correlate_corr. split.
  - rewrite <- (Cmult_1_l (Cconj _)), <- corr_west. apply corr_ext. intros i j Hi Hj. unfold westward. rewrite (mget_relabel _ N M) by assumption. unfold west_of. ring.
  - rewrite <- corr_west. apply corr_ext. intros i j Hi Hj. rewrite (mget_mscale N M) by (try assumption; now apply relabel_shaped). unfold westward. now rewrite (mget_relabel _ N M).
Qed.
Lemma Cconj_mult a b : Cconj (Cmult a b) = Cmult (Cconj a) (Cconj b).
Proof. destruct a, b. unfold Cconj, Cmult. cbn. apply pairC; ring. Qed.
Lemma Cconj_plus a b : Cconj (Cplus a b) = Cplus (Cconj a) (Cconj b).
Proof. destruct a, b. unfold Cconj, Cplus. cbn. apply pairC; ring. Qed.
Lemma Cconj_R x : Cconj (RtoC x) = RtoC x.
Proof. unfold Cconj, RtoC. cbn. apply pairC; ring. Qed.
Lemma Cconj_i a : Cconj (i_times a) = Cmult (RtoC (-1)) (i_times (Cconj a)).
Proof. destruct a. unfold Cconj, i_times, Cmult, RtoC. cbn. apply pairC; ring. Qed.
Lemma coef_conj x k : coef (map Cconj x) k = Cconj (coef x k).
Proof. unfold coef. rewrite <- (Cconj_R 0) at 1. apply map_nth. Qed.
Lemma coef_sscale' a x k : coef (sscale a x) k = Cmult (RtoC a) (coef x k).
Proof. unfold coef, sscale. rewrite <- (Cmult_0_r (RtoC a)) at 1. apply (map_nth (Cmult (RtoC a))). Qed.
Lemma coefs_conj c e : (forall m n, e m n = Cconj (c m n)) -> coefs D nt e = map Cconj (coefs D nt c).
Proof.
  intros H. apply (coef_ext L); [apply coefs_length|rewrite map_length; apply coefs_length|]. intros k Hk. rewrite coef_conj, !coef_coefs, H by exact Hk.
  destruct (Nat.leb (degree nt k) D); [now rewrite Cconj_mult, Cconj_R|now rewrite Cconj_R].
Qed.
Lemma coefs_conj_opp c e : (forall m n, e m n = Cmult (RtoC (-1)) (Cconj (c m n))) -> coefs D nt e = sscale (-1) (map Cconj (coefs D nt c)).
Proof.
  intros H. apply (coef_ext L); [apply coefs_length|rewrite sscale_length, map_length; apply coefs_length|]. intros k Hk. rewrite coef_sscale', coef_conj, !coef_coefs, H by exact Hk.
  destruct (Nat.leb (degree nt k) D); [rewrite Cconj_mult, Cconj_R; ring|rewrite Cconj_R; now rewrite Cmult_0_r].
Qed.
Lemma swing_conj c a : swing (Cconj c) a = swing c (- a).
Proof. unfold swing. destruct c. cbn. rewrite cos_neg, sin_neg. ring. Qed.
Lemma swing_scale s c a : swing (Cmult (RtoC s) c) a = s * swing c a.
Proof. unfold swing. destruct c. cbn. ring. Qed.
(** coefficients that are s times the conjugate of those of x *)
Lemma sum_at_conj h s x y phi j : length x = L -> length y = L -> (forall k, (k < L)%nat -> coef y k = Cmult (RtoC s) (Cconj (coef x k))) -> (j < M)%nat ->
  sum_at h y phi (col_lon M j) = s * sum_at h x phi (col_lon M (west_of j)).
Proof.
  intros X Y H Hj. rewrite !(sum_at_eq nt) by assumption. rewrite <- Rsum_tab_scal. f_equal. apply tab_ext. intros k Hk. rewrite H, swing_scale, swing_conj by exact Hk.
  unfold swing. destruct (west_cos_sin (order nt k) j Hj) as [-> ->]. rewrite cos_neg, sin_neg. ring.
Qed.
Lemma potential_conj s x y k : length x = L -> length y = L -> (k < L)%nat -> coef y k = Cmult (RtoC s) (Cconj (coef x k)) ->
  coef (potential r y) k = Cmult (RtoC s) (Cconj (coef (potential r x) k)).
Proof.
  intros X Y Hk H. rewrite !(coef_potential nt r), H by assumption. destruct (Nat.eqb (degree nt k) 0); [rewrite Cconj_R, Cmult_0_r; reflexivity|]. rewrite Cconj_mult, Cconj_R. ring.
Qed.
Lemma west_sample s F G : (forall phi j, (j < M)%nat -> F phi (col_lon M j) = s * G phi (col_lon M (west_of j))) -> sample N M F = mscale s (westward M (sample N M G)).
Proof.
  intros H. unfold sample. apply (mat_ext N M); [apply shaped_mat_of|apply shaped_mscale, relabel_shaped, shaped_mat_of|]. intros i j Hi Hj.
  rewrite (mget_mscale N M) by (try assumption; apply relabel_shaped, shaped_mat_of). unfold westward. rewrite (mget_relabel _ N M) by (assumption || apply shaped_mat_of).
  rewrite !mget_mat_of; [now apply H|assumption| |assumption|assumption]. apply Nat.mod_upper_bound. lia.
Qed.
Lemma west_sample_1 F G : (forall phi j, (j < M)%nat -> F phi (col_lon M j) = G phi (col_lon M (west_of j))) -> sample N M F = westward M (sample N M G).
Proof.
  intros H. unfold sample. apply (mat_ext N M); [apply shaped_mat_of|apply relabel_shaped, shaped_mat_of|]. intros i j Hi Hj.
  unfold westward. rewrite (mget_relabel _ N M) by (assumption || apply shaped_mat_of).
  rewrite !mget_mat_of; [now apply H|assumption| |assumption|assumption]. apply Nat.mod_upper_bound. lia.
Qed.
Lemma harmonics_reverse : reversal_symmetric (harmonics D N M r) N M nt.
Proof.
  split; cbn [harmonics sh_grdtospec sh_spectogrd sh_getuv sh_getvrtdivspec].
  - intros f F. apply coefs_conj. intros m n. now apply correlate_west.
  - intros z e Z E.
    assert (Z' : length (sscale (-1) (map Cconj z)) = L) by (rewrite sscale_length, map_length; exact Z).
    assert (E' : length (map Cconj e) = L) by (rewrite map_length; exact E).
    assert (PZ : forall k, (k < L)%nat -> coef (potential r (sscale (-1) (map Cconj z))) k = Cmult (RtoC (-1)) (Cconj (coef (potential r z) k))).
    { intros k Hk. apply potential_conj; try assumption. now rewrite coef_sscale', coef_conj. }
    assert (PE : forall k, (k < L)%nat -> coef (potential r (map Cconj e)) k = Cmult (RtoC 1) (Cconj (coef (potential r e) k))).
    { intros k Hk. apply potential_conj; try assumption. now rewrite coef_conj, Cmult_1_l. }
    assert (IZ : forall k, (k < L)%nat -> coef (map i_times (potential r (sscale (-1) (map Cconj z)))) k = Cmult (RtoC 1) (Cconj (coef (map i_times (potential r z)) k))).
    { intros k Hk. rewrite !coef_i_times, PZ, Cconj_i by exact Hk. rewrite !i_times_mult. rewrite RtoC_m1. ring. }
    assert (IE : forall k, (k < L)%nat -> coef (map i_times (potential r (map Cconj e))) k = Cmult (RtoC (-1)) (Cconj (coef (map i_times (potential r e)) k))).
    { intros k Hk. rewrite !coef_i_times, PE, Cconj_i by exact Hk. rewrite !i_times_mult. rewrite RtoC_m1. ring. }
    unfold h_getuv. cbn [fst snd]. f_equal; [apply west_sample|apply west_sample_1]; intros phi j Hj.
    + rewrite (sum_at_conj h_east (-1) (map i_times (potential r e))), (sum_at_conj h_north (-1) (potential r z)) by (try assumption; rewrite ?map_length, ?potential_length; assumption). field. lra.
    + rewrite (sum_at_conj h_east 1 (map i_times (potential r z))), (sum_at_conj h_north 1 (potential r e)) by (try assumption; rewrite ?map_length, ?potential_length; assumption). field. lra.
  - intros u v U V. unfold h_getvrtdiv. cbn [fst snd]. f_equal; [apply coefs_conj_opp|apply coefs_conj]; intros m n.
    + rewrite (proj2 (correlate_west h_north m n u U)), (proj1 (correlate_west h_east m n v V)), Cconj_mult, Cconj_plus, Cconj_R, Cconj_i, !i_times_mult. rewrite RtoC_m1. ring.
    + rewrite (proj2 (correlate_west h_east m n u U)), (proj1 (correlate_west h_north m n v V)). unfold Cminus. rewrite Cconj_mult, Cconj_plus, Cconj_R, Cconj_i, !i_times_mult. rewrite RtoC_m1.
      assert (forall c, Cconj (Copp c) = Copp (Cconj c)) as -> by (intros [p q]; unfold Cconj, Copp; cbn; reflexivity). ring.
  - intros u v k Ek. unfold h_getvrtdiv. cbn [snd]. destruct (Nat.lt_ge_cases k L) as [Hk|Hk].
    + rewrite coef_coefs by exact Hk. rewrite Ek. destruct (Nat.leb (degree nt k) D); [|reflexivity]. rewrite !correlate_corr.
      assert (corr h_east N M 0 (degree nt k) (mget u) = RtoC 0) as -> by (apply corr_part_0; intros phi; apply east_0). rewrite i_times_0.
      pose proof (corr_0_real N M h_north (degree nt k) (mget v)) as Q. destruct (corr h_north N M 0 (degree nt k) (mget v)) as [p q]. cbn in *. rewrite Q. ring.
    + rewrite coef_high by (rewrite coefs_length; exact Hk). reflexivity.
Qed.
End Symmetries.
