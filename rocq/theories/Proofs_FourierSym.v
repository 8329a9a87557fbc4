(** Zonal Fourier analysis and filters on a turned or reversed circle. *)
From Coq Require Export String.
From Coq Require Import Permutation.
From Verif Require Import Base Spec_Fourier Spec_Filter Spec_FourierSym Model_Grid Model_Fourier Model_Filter Spec_Sym Proofs_Base Proofs_Grid Proofs_StateList Proofs_Trig Proofs_Filter Proofs_Fourier Proofs_Sym.
From Verif Require Import Model_Region.
From Coq Require Import List Lia Lra.
Open Scope R_scope.

Lemma circle_z n p : (0 < n)%nat -> circle_symmetry n p ->
  exists (r e : Z), (e = 1 \/ e = -1)%Z /\ forall j, (j < n)%nat -> (p j < n)%nat /\ exists q, (Z.of_nat (p j) = r + e * Z.of_nat j + q * Z.of_nat n)%Z.
Proof.
  intros N [r H]. destruct H as [H|H].
  - exists (Z.of_nat r), 1%Z. split; [now left|]. intros j Hj. rewrite (H j Hj). split; [apply Nat.mod_upper_bound; lia|].
    exists (- (Z.of_nat ((r + j) / n)))%Z. pose proof (Nat.div_mod (r + j) n ltac:(lia)). nia.
  - exists (Z.of_nat r), (-1)%Z. split; [now right|]. intros j Hj. rewrite (H j Hj). split; [apply Nat.mod_upper_bound; lia|].
    exists (1 - Z.of_nat ((r + (n - j)) / n))%Z. pose proof (Nat.div_mod (r + (n - j)) n ltac:(lia)). nia.
Qed.
Lemma circle_permutes n p : circle_symmetry n p -> permutes n p.
Proof.
  intros H. destruct (Nat.eq_dec n 0) as [->|N]; [split; intros; lia|]. destruct (circle_z n p ltac:(lia) H) as [r [e [E Z]]]. split.
  - intros j Hj. apply Z, Hj.
  - intros i j Hi Hj X. destruct (Z i Hi) as [_ [q Q]]. destruct (Z j Hj) as [_ [q' Q']]. rewrite X in Q.
    assert (D : (e * (Z.of_nat i - Z.of_nat j) = (q' - q) * Z.of_nat n)%Z) by lia.
    assert (B : (- Z.of_nat n < Z.of_nat i - Z.of_nat j < Z.of_nat n)%Z) by lia.
    assert (q' - q = 0)%Z by (destruct E; subst e; nia). destruct E; subst e; nia.
Qed.
Lemma cos_Z x z : cos (x + 2 * PI * IZR z) = cos x.
Proof.
  destruct (Z_le_gt_dec 0 z) as [P|P].
  - rewrite <- (Z2Nat.id z P), <- INR_IZR_INZ. replace (2 * PI * INR (Z.to_nat z)) with (2 * INR (Z.to_nat z) * PI) by ring. apply cos_period.
  - rewrite <- (cos_period _ (Z.to_nat (- z))). f_equal. rewrite INR_IZR_INZ, Z2Nat.id, opp_IZR by lia. ring.
Qed.
Lemma sin_Z x z : sin (x + 2 * PI * IZR z) = sin x.
Proof.
  destruct (Z_le_gt_dec 0 z) as [P|P].
  - rewrite <- (Z2Nat.id z P), <- INR_IZR_INZ. replace (2 * PI * INR (Z.to_nat z)) with (2 * INR (Z.to_nat z) * PI) by ring. apply sin_period.
  - rewrite <- (sin_period _ (Z.to_nat (- z))). f_equal. rewrite INR_IZR_INZ, Z2Nat.id, opp_IZR by lia. ring.
Qed.
(** cosine and sine at p j in terms of those at j: a rotation, or one with a reflection *)
Lemma circle_angle n p : (0 < n)%nat -> circle_symmetry n p -> exists e, e ^ 2 = 1 /\ forall k, exists c s, c ^ 2 + s ^ 2 = 1
  /\ forall j, (j < n)%nat -> cos (angle n k j) = c * cos (angle n k (p j)) + s * sin (angle n k (p j))
                          /\ sin (angle n k j) = e * (c * sin (angle n k (p j)) - s * cos (angle n k (p j))).
Proof.
  intros N H. destruct (circle_z n p N H) as [r [e [E Z]]]. exists (IZR e). split; [destruct E; subst e; ring|]. intros k. set (al := 2 * PI * (INR k * IZR r) / INR n).
  assert (N0 : INR n <> 0) by (apply not_0_INR; lia).
  exists (cos al), (sin al). split; [pose proof (sin2_cos2 al) as Q; unfold Rsqr in Q; lra|].
  intros j Hj. destruct (Z j Hj) as [_ [q Q]].
  assert (A : angle n k (p j) = (al + IZR e * angle n k j) + 2 * PI * IZR (Z.of_nat k * q)).
  { unfold angle, al. rewrite (INR_IZR_INZ (p j)), Q, !plus_IZR, !mult_IZR, <- !INR_IZR_INZ. field. exact N0. }
  rewrite A, cos_Z, sin_Z. pose proof (sin2_cos2 al) as S2. unfold Rsqr in S2.
  set (t := angle n k j). rewrite cos_plus, sin_plus.
  assert (CE : cos (IZR e * t) = cos t /\ sin (IZR e * t) = IZR e * sin t).
  { destruct E; subst e; [rewrite !Rmult_1_l; auto|]. replace (-1 * t) with (- t) by ring. rewrite cos_neg, sin_neg. split; [reflexivity|ring]. }
  destruct CE as [-> ->]. assert (E2 : IZR e * IZR e = 1) by (destruct E; subst e; ring). split.
  - transitivity ((sin al * sin al + cos al * cos al) * cos t); [rewrite S2; ring|ring].
  - transitivity ((sin al * sin al + cos al * cos al) * (IZR e * IZR e) * sin t); [rewrite S2, E2; ring|ring].
Qed.
Lemma Rsum_permuted n p (F : nat -> R) : permutes n p -> Rsum (tab n (fun j => F (p j))) = Rsum (tab n F).
Proof. intros P. apply Rsum_perm. unfold tab. rewrite <- (map_map p F). apply Permutation_map. now apply permutes_perm. Qed.

(** ** Coefficients *)
Lemma coeff_turned n p x : (0 < n)%nat -> length x = n -> circle_symmetry n p -> exists e, e ^ 2 = 1 /\ forall k, exists c s, c ^ 2 + s ^ 2 = 1
  /\ (forall j, (j < n)%nat -> cos (angle n k j) = c * cos (angle n k (p j)) + s * sin (angle n k (p j))
                          /\ sin (angle n k j) = e * (c * sin (angle n k (p j)) - s * cos (angle n k (p j))))
  /\ cos_coeff (reorder 0 p x) k = c * cos_coeff x k + s * sin_coeff x k
  /\ sin_coeff (reorder 0 p x) k = e * (c * sin_coeff x k - s * cos_coeff x k).
Proof.
  intros N L H. destruct (circle_angle n p N H) as [e [E W]]. exists e. split; [exact E|]. intros k. destruct (W k) as [c [s [C A]]]. exists c, s. split; [exact C|]. split; [exact A|].
  pose proof (circle_permutes n p H) as P. unfold cos_coeff, sin_coeff. rewrite reorder_length, L.
  change (fun j => nth j (reorder 0 p x) 0 * cos (2 * PI * (INR k * INR j) / INR n)) with (fun j => nth j (reorder 0 p x) 0 * cos (angle n k j)).
  change (fun j => nth j (reorder 0 p x) 0 * sin (2 * PI * (INR k * INR j) / INR n)) with (fun j => nth j (reorder 0 p x) 0 * sin (angle n k j)).
  change (fun j => nth j x 0 * cos (2 * PI * (INR k * INR j) / INR n)) with (fun j => nth j x 0 * cos (angle n k j)).
  change (fun j => nth j x 0 * sin (2 * PI * (INR k * INR j) / INR n)) with (fun j => nth j x 0 * sin (angle n k j)).
  rewrite <- (Rsum_permuted n p (fun j => nth j x 0 * cos (angle n k j)) P), <- (Rsum_permuted n p (fun j => nth j x 0 * sin (angle n k j)) P). split.
  - rewrite <- !Rsum_tab_scal, <- Rsum_tab_plus. f_equal. apply tab_ext. intros j Hj. rewrite reorder_nth by lia. rewrite (proj1 (A j Hj)). ring.
  - unfold Rminus. rewrite Ropp_mult_distr_l. rewrite <- !Rsum_tab_scal, <- Rsum_tab_plus, <- Rsum_tab_scal. f_equal. apply tab_ext. intros j Hj. rewrite reorder_nth by lia. rewrite (proj2 (A j Hj)). ring.
Qed.
Lemma power_turned p x k : x <> nil -> circle_symmetry (length x) p -> wave_power (reorder 0 p x) k = wave_power x k.
Proof.
  intros N H. assert (N0 : (0 < length x)%nat) by (destruct x; [congruence|cbn; lia]). unfold wave_power. destruct (coeff_turned (length x) p x N0 eq_refl H) as [e [E W]]. destruct (W k) as [c [s [C [_ [-> ->]]]]].
  set (a := cos_coeff x k). set (b := sin_coeff x k). transitivity ((c * a + s * b) ^ 2 + e ^ 2 * (c * b - s * a) ^ 2); [ring|]. rewrite E. transitivity ((c ^ 2 + s ^ 2) * (a ^ 2 + b ^ 2)); [ring|rewrite C; ring].
Qed.

(** ** Restriction and envelope, even number of longitudes *)
Section Even.
Variables (h : nat) (H1 : (1 <= h)%nat) (p : nat -> nat) (P : circle_symmetry (2 * h) p).
Lemma coeff_AB x k : length x = (2 * h)%nat -> cos_coeff x k = A h (fn x) k /\ sin_coeff x k = B h (fn x) k.
Proof. intros L. unfold cos_coeff, sin_coeff. rewrite L. split; reflexivity. Qed.
Lemma AB_turned x : length x = (2 * h)%nat -> exists e, e ^ 2 = 1 /\ forall k, exists c s, c ^ 2 + s ^ 2 = 1
  /\ (forall j, (j < 2 * h)%nat -> cos (angle (2 * h) k j) = c * cos (angle (2 * h) k (p j)) + s * sin (angle (2 * h) k (p j))
                          /\ sin (angle (2 * h) k j) = e * (c * sin (angle (2 * h) k (p j)) - s * cos (angle (2 * h) k (p j))))
  /\ A h (fn (reorder 0 p x)) k = c * A h (fn x) k + s * B h (fn x) k
  /\ B h (fn (reorder 0 p x)) k = e * (c * B h (fn x) k - s * A h (fn x) k).
Proof.
  intros L. destruct (coeff_turned (2 * h) p x ltac:(lia) L P) as [e [E W]]. exists e. split; [exact E|]. intros k. destruct (W k) as [c [s [C [An [X Y]]]]].
  destruct (coeff_AB x k L) as [E1 E2]. destruct (coeff_AB (reorder 0 p x) k ltac:(now rewrite reorder_length)) as [E3 E4].
  rewrite <- E1, <- E2, <- E3, <- E4. exists c, s. split; [exact C|]. split; [exact An|]. split; [exact X|exact Y].
Qed.
Lemma synth_turned q x j : length x = (2 * h)%nat -> (j < 2 * h)%nat -> synth h q (fn (reorder 0 p x)) j = synth h q (fn x) (p j).
Proof.
  intros L Hj. unfold synth. destruct (AB_turned x L) as [e [E W]]. f_equal. apply tab_ext. intros k _. destruct (W k) as [c [s [C [An [-> ->]]]]]. destruct (An j Hj) as [Ec Es].
  unfold wave. rewrite Ec, Es. set (a := A h (fn x) k). set (b := B h (fn x) k). set (w := q k * cfac h k / INR (2 * h)).
  set (cc := cos (angle (2 * h) k (p j))). set (ss := sin (angle (2 * h) k (p j))).
  transitivity (w * ((c * a + s * b) * (c * cc + s * ss) + e ^ 2 * (c * b - s * a) * (c * ss - s * cc))); [ring|]. rewrite E.
  transitivity (w * ((c ^ 2 + s ^ 2) * (a * cc + b * ss))); [ring|rewrite C; ring].
Qed.
Lemma restrict_turned q x : length x = (2 * h)%nat -> tab (2 * h) (synth h q (fn (reorder 0 p x))) = reorder 0 p (tab (2 * h) (synth h q (fn x))).
Proof. intros L. rewrite reorder_tab by now apply circle_permutes. apply tab_ext. intros j Hj. now apply synth_turned. Qed.
(** the analytic signal, or its complex conjugate *)
Lemma hilbert_turned x j : length x = (2 * h)%nat -> (j < 2 * h)%nat -> cabs (nth j (hilbert (reorder 0 p x)) (0, 0)) = cabs (nth (p j) (hilbert x) (0, 0)).
Proof.
  intros L Hj. destruct (circle_permutes _ _ P) as [Pl _]. rewrite !(hilbert_form h H1) by (try rewrite reorder_length; auto). destruct (AB_turned x L) as [e [E W]].
  unfold cabs. cbn [fst snd]. f_equal. unfold fn at 1. rewrite reorder_nth by lia. change (nth (p j) x 0) with (fn x (p j)). f_equal.
  assert (G : forall u v, u = e * v -> u ^ 2 = v ^ 2) by (intros u v ->; rewrite Rpow_mult_distr, E; ring). apply G.
  rewrite <- Rsum_tab_scal. f_equal. apply tab_ext. intros k _. destruct (W k) as [c [s [C [An [-> ->]]]]]. destruct (An j Hj) as [-> ->].
  set (a := A h (fn x) k). set (b := B h (fn x) k). set (w := cfac h k / INR (2 * h)).
  set (cc := cos (angle (2 * h) k (p j))). set (ss := sin (angle (2 * h) k (p j))).
  transitivity (e * (w * ((c ^ 2 + s ^ 2) * (a * ss - b * cc)))); [ring|rewrite C; ring].
Qed.
End Even.

(** ** Filter *)
Lemma hann_turned p hw x j : x <> nil -> circle_symmetry (length x) p -> (j < length x)%nat -> hann_mean hw (reorder 0 p x) j = hann_mean hw x (p j).
Proof.
  intros Nx H Hj. set (n := length x) in *. assert (N : (0 < n)%nat) by lia. unfold hann_mean. rewrite reorder_length. fold n.
  destruct (circle_z n p N H) as [r [e [E Z]]].
  assert (M : forall d, nth (Z.to_nat ((Z.of_nat j + d) mod Z.of_nat n)) (reorder 0 p x) 0 = nth (Z.to_nat ((Z.of_nat (p j) + e * d) mod Z.of_nat n)) x 0).
  { intros d. pose proof (Z.mod_pos_bound (Z.of_nat j + d) (Z.of_nat n) ltac:(lia)) as Bd. set (i := Z.to_nat ((Z.of_nat j + d) mod Z.of_nat n)).
    assert (Hi : (i < n)%nat) by (unfold i; lia). rewrite reorder_nth by exact Hi. f_equal. destruct (Z i Hi) as [Li [q Q]]. destruct (Z j Hj) as [_ [q' Q']].
    pose proof (Z.div_mod (Z.of_nat j + d) (Z.of_nat n) ltac:(lia)) as Dm.
    assert (Ei : Z.of_nat i = ((Z.of_nat j + d) mod Z.of_nat n)%Z) by (unfold i; lia).
    set (t := ((Z.of_nat j + d) / Z.of_nat n)%Z) in *.
    assert (X : (Z.of_nat (p j) + e * d = Z.of_nat (p i) + (q' - q + e * t) * Z.of_nat n)%Z) by (rewrite Q, Q', Ei; nia).
    rewrite X, Z_mod_plus_full, Z.mod_small by lia. now rewrite Nat2Z.id. }
  destruct E as [->| ->].
  - f_equal. apply tab_ext. intros i _. rewrite M. do 4 f_equal. lia.
  - rewrite <- (Rsum_permuted (2 * hw + 1) (fun i => 2 * hw - i)%nat).
    + f_equal. apply tab_ext. intros i Hi. rewrite M. rewrite minus_INR by lia. f_equal.
      * f_equal. f_equal. rewrite <- cos_neg. f_equal. rewrite mult_INR. cbn [INR]. unfold Rdiv. ring.
      * f_equal. f_equal. f_equal. lia.
    + split; intros; lia.
Qed.
