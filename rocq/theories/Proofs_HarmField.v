(** The functions sampled by the transforms of Spec_Harmonics and their derivatives. *)
From Coq Require Export String.
From Verif Require Import Base Model_Grid Model_Spectral Spec_Spectral Spec_Symmetry Spec_Waves Spec_Harmonics.
From Verif Require Import Proofs_Base Proofs_Trig Proofs_Spectral Proofs_Poly Proofs_Legendre Proofs_HarmQuad Proofs_HarmSum Proofs_Harmonics.
From Coquelicot Require Import Coquelicot.
From Coq Require Import List Lia Lra.
Import ListNotations.
Open Scope R_scope.

Lemma is_derive_Rsum L (F : nat -> R -> R) (G : nat -> R) x : (forall k, (k < L)%nat -> is_derive (F k) x (G k)) ->
  is_derive (fun t => Rsum (tab L (fun k => F k t))) x (Rsum (tab L G)).
Proof.
  induction L as [|L IH]; intros H; [apply (is_derive_ext (fun _ => 0)); [reflexivity|apply @is_derive_const]|].
  rewrite Rsum_tab_S. apply (is_derive_ext (fun t => Rsum (tab L (fun k => F k t)) + F L t)); [intros t; symmetry; apply Rsum_tab_S|].
  apply @is_derive_plus; [apply IH; intros k Hk; apply H; lia|apply H; lia].
Qed.
Lemma is_derive_scal_right (f : R -> R) x l c : is_derive f x l -> is_derive (fun t => f t * c) x (l * c).
Proof.
  intros H. apply (is_derive_ext (fun t => c * f t)); [intros t; apply Rmult_comm|]. rewrite Rmult_comm. now apply is_derive_scal.
Qed.
Lemma swing_derive c a lam : is_derive (fun t => swing c (a * t)) lam (a * swing (i_times c) (a * lam)).
Proof. unfold swing, i_times. cbn [Re Im fst snd]. auto_derive; [exact I|]. ring. Qed.
Lemma east_value m n phi : cos phi * h_east m n phi = INR m * h_value m n phi.
Proof. unfold h_east, h_value. destruct m as [|m]; [change (INR 0) with 0; ring|]. replace (S m - 1)%nat with m by lia. cbn [pow]. ring. Qed.
Lemma rodrigues_sin n m phi : is_derive (fun t => rodrigues n m (sin t)) phi (cos phi * rodrigues n (S m) (sin phi)).
Proof. apply (is_derive_comp (rodrigues n m) sin); [apply rodrigues_step|]. auto_derive; [exact I|]. ring. Qed.
Lemma cos_pow_derive m phi : is_derive (fun t => cos t ^ m) phi (- (INR m * cos phi ^ (m - 1) * sin phi)).
Proof. auto_derive; [exact I|]. rewrite <- Nat.sub_1_r. generalize (cos phi ^ (m - 1)). intros q. ring. Qed.
Lemma value_derive m n phi : is_derive (h_value m n) phi (h_north m n phi).
Proof.
  unfold h_value. evar_last; [apply @is_derive_mult; [apply cos_pow_derive|apply rodrigues_sin|intros; apply Rmult_comm]|].
  unfold plus, mult; cbn -[INR pow]. unfold h_north. rewrite Nat.add_1_r. cbn [pow]. ring.
Qed.
Lemma north_derive m n phi : cos phi <> 0 -> is_derive (fun t => cos t * h_north m n t) phi ((INR m * INR m / cos phi - INR n * (INR n + 1) * cos phi) * h_value m n phi).
Proof.
  intros C. unfold h_north.
  apply (is_derive_ext (fun t => cos t ^ (m + 2) * rodrigues n (S m) (sin t) - INR m * (sin t * (cos t ^ m * rodrigues n m (sin t))))).
  { intros t. match goal with |- ?a = ?b => change (@eq R a b) end. rewrite Nat.add_1_r, Nat.add_comm. cbn [Nat.add pow]. destruct m as [|m']; [change (INR 0) with 0; cbn [pow]; ring|]. replace (S m' - 1)%nat with m' by lia. cbn [pow]. ring. }
  evar_last.
  { apply @is_derive_minus; [apply @is_derive_mult; [apply cos_pow_derive|apply rodrigues_sin|intros; apply Rmult_comm]|].
    apply is_derive_scal. apply @is_derive_mult; [apply is_derive_sin| |intros; apply Rmult_comm]. apply @is_derive_mult; [apply cos_pow_derive|apply rodrigues_sin|intros; apply Rmult_comm]. }
  unfold minus, plus, opp, mult, scal; cbn -[INR pow Nat.sub]. unfold h_value.
  pose proof (rodrigues_ode n m (sin phi)) as O. set (P := rodrigues n m (sin phi)) in *. set (P1 := rodrigues n (S m) (sin phi)) in *. set (P2 := rodrigues n (S (S m)) (sin phi)) in *.
  assert (W : sin phi * sin phi = 1 - cos phi * cos phi) by (pose proof (sin2_cos2 phi) as S; unfold Rsqr in S; lra).
  replace (1 - sin phi ^ 2) with (cos phi * cos phi) in O by (cbn [pow]; lra).
  replace (m + 2 - 1)%nat with (S m) by lia. replace (m + 2)%nat with (S (S m)) by lia. rewrite !S_INR.
  assert (Q : INR m * cos phi ^ (m - 1) = INR m * (cos phi ^ m / cos phi)).
  { destruct m as [|m']; [change (INR 0) with 0; ring|]. replace (S m' - 1)%nat with m' by lia. cbn [pow]. f_equal. field. exact C. }
  cbn [pow]. set (q := cos phi ^ m) in *. set (q1 := cos phi ^ (m - 1)) in *. set (c := cos phi) in *. set (s := sin phi) in *. set (u := INR m) in *. set (v := INR n) in *.
  assert (E2 : c * c * P2 = 2 * (u + 1) * s * P1 - (v * (v + 1) - u * (u + 1)) * P) by lra.
  transitivity (c * q * (c * c * P2) - (u + 1 + 1) * q * c * s * P1 - u * (c * q * P) + (u * q1) * (u * (s * s) * P) - u * s * q * c * P1); [ring|]. rewrite E2, Q, W. field. exact C.
Qed.
Section Fields.
Variable nt : nat.
Variable x : list C.
Hypothesis X : length x = nspec nt.
Lemma field_east phi lam : is_derive (fun t => sum_at h_value x phi t) lam (cos phi * sum_at h_east (map i_times x) phi lam).
Proof.
  rewrite (sum_at_eq nt h_east) by (rewrite map_length; exact X). rewrite <- Rsum_tab_scal.
  apply (is_derive_ext (fun t => Rsum (tab (nspec nt) (fun k => h_value (order nt k) (degree nt k) phi * swing (coef x k) (INR (order nt k) * t))))); [intros t; symmetry; now apply sum_at_eq|].
  apply is_derive_Rsum. intros k Hk. rewrite coef_i_times, <- Rmult_assoc, east_value. evar_last; [apply is_derive_scal, swing_derive|]. cbn. ring.
Qed.
Lemma field_north phi lam : is_derive (fun t => sum_at h_value x t lam) phi (sum_at h_north x phi lam).
Proof.
  rewrite (sum_at_eq nt h_north) by exact X.
  apply (is_derive_ext (fun t => Rsum (tab (nspec nt) (fun k => h_value (order nt k) (degree nt k) t * swing (coef x k) (INR (order nt k) * lam))))); [intros t; symmetry; now apply sum_at_eq|].
  apply is_derive_Rsum. intros k Hk. apply (is_derive_scal_right (h_value (order nt k) (degree nt k))), value_derive.
Qed.
Lemma field_east2 phi lam : is_derive (fun t => cos phi * sum_at h_east (map i_times x) phi t) lam
  (Rsum (tab (nspec nt) (fun k => - (INR (order nt k) * INR (order nt k)) * (h_value (order nt k) (degree nt k) phi * swing (coef x k) (INR (order nt k) * lam))))).
Proof.
  apply (is_derive_ext (fun t => Rsum (tab (nspec nt) (fun k => INR (order nt k) * h_value (order nt k) (degree nt k) phi * swing (i_times (coef x k)) (INR (order nt k) * t))))).
  { intros t. rewrite (sum_at_eq nt h_east) by (rewrite map_length; exact X). rewrite <- Rsum_tab_scal. f_equal. apply tab_ext. intros k Hk. rewrite coef_i_times, <- Rmult_assoc, east_value. reflexivity. }
  apply is_derive_Rsum. intros k Hk. evar_last; [apply is_derive_scal, swing_derive|]. unfold swing, i_times. cbn. ring.
Qed.
Lemma field_north2 phi lam : cos phi <> 0 -> is_derive (fun t => cos t * sum_at h_north x t lam) phi
  (Rsum (tab (nspec nt) (fun k => (INR (order nt k) * INR (order nt k) / cos phi - INR (degree nt k) * (INR (degree nt k) + 1) * cos phi) * (h_value (order nt k) (degree nt k) phi * swing (coef x k) (INR (order nt k) * lam))))).
Proof.
  intros C. apply (is_derive_ext (fun t => Rsum (tab (nspec nt) (fun k => (cos t * h_north (order nt k) (degree nt k) t) * swing (coef x k) (INR (order nt k) * lam))))).
  { intros t. rewrite (sum_at_eq nt h_north) by exact X. rewrite <- Rsum_tab_scal. f_equal. apply tab_ext. intros k Hk. match goal with |- ?a = ?b => change (@eq R a b) end. ring. }
  apply is_derive_Rsum. intros k Hk. rewrite <- Rmult_assoc. apply (is_derive_scal_right (fun t => cos t * h_north (order nt k) (degree nt k) t)), north_derive, C.
Qed.
(** the Laplacian of a field multiplies harmonics of degree n with -n*(n+1) *)
Lemma field_laplacian phi lam y : length y = nspec nt -> (forall k, (k < nspec nt)%nat -> coef y k = Cmult (RtoC (- (INR (degree nt k) * (INR (degree nt k) + 1)))) (coef x k)) -> cos phi <> 0 ->
  exists A B, is_derive (fun t => cos t * sum_at h_north x t lam) phi A /\ is_derive (fun t => cos phi * sum_at h_east (map i_times x) phi t) lam B
  /\ A / cos phi + B / cos phi ^ 2 = sum_at h_value y phi lam.
Proof.
  intros Y E C. eexists. eexists. split; [apply field_north2, C|]. split; [apply field_east2|].
  unfold Rdiv. rewrite <- !Rsum_tab_scal_r, <- Rsum_tab_plus. rewrite (sum_at_eq nt) by exact Y. f_equal. apply tab_ext. intros k Hk. rewrite E by exact Hk.
  unfold swing. destruct (coef x k) as [p q]. cbn [Re Im Cmult RtoC fst snd]. field. exact C.
Qed.
End Fields.
