(** The filtered leapfrog scheme for the equation dq/dt = -r q: a linear recursion
    for pairs (filtered old value, new value) and its eigenvalues. *)
From Coq Require Import Reals Lra Lia.
Open Scope R_scope.

(** x = r dt, c the factor of an implicit diffusion step *)
Definition recursion (x c : R) (a b : nat -> R) : Prop :=
  forall n, b (S n) = c * (a n - 2 * x * b n) /\ a (S n) = (1 - 2 * (1 / 5)) * b n + 1 / 5 * (a n + b (S n)).

Section Eigen.
Variables x c : R.
Hypothesis Hx : 0 < x.
Hypothesis Hc : 0 < c <= 1.
Let p := 1 / 5 * (1 + c).
Let tr := p - 2 * c * x.
Let det := - c * (2 / 5 * x + 3 / 5).
Let disc := tr * tr - 4 * det.
Definition lplus : R := (tr + sqrt disc) / 2.
Definition lminus : R := (tr - sqrt disc) / 2.

Lemma det_neg : det < 0.
Proof. unfold det. nra. Qed.
Lemma disc_pos : 0 < disc.
Proof. unfold disc. pose proof det_neg. nra. Qed.
Lemma sqrt_disc : sqrt disc * sqrt disc = disc /\ 0 < sqrt disc.
Proof. pose proof disc_pos. split; [apply sqrt_sqrt; lra|now apply sqrt_lt_R0]. Qed.
Lemma roots : lplus + lminus = tr /\ lplus * lminus = det.
Proof. destruct sqrt_disc as [E _]. unfold lplus, lminus. split; [lra|]. replace ((tr + sqrt disc) / 2 * ((tr - sqrt disc) / 2)) with ((tr * tr - sqrt disc * sqrt disc) / 4) by field. rewrite E. unfold disc. field. Qed.
Lemma roots_differ : 0 < lplus - lminus.
Proof. destruct sqrt_disc. unfold lplus, lminus. lra. Qed.
Lemma roots_signs : lminus < 0 < lplus.
Proof. destruct roots as [_ E]. pose proof roots_differ. pose proof det_neg. split; nra. Qed.
Lemma lplus_lt_1 : lplus < 1.
Proof.
  destruct roots as [E1 E2]. pose proof roots_signs as [S1 S2]. assert (F : 0 < 1 - tr + det) by (unfold tr, det, p; nra).
  assert (G : 0 < (1 - lplus) * (1 - lminus)) by (replace ((1 - lplus) * (1 - lminus)) with (1 - (lplus + lminus) + lplus * lminus) by ring; rewrite E1, E2; exact F).
  nra.
Qed.
Lemma lminus_gt : x < 1 / 3 -> -1 < lminus.
Proof.
  intros X. destruct roots as [E1 E2]. pose proof roots_signs as [S1 S2]. assert (F : 0 < 1 + tr + det) by (unfold tr, det, p; nra).
  assert (G : 0 < (1 + lplus) * (1 + lminus)) by (replace ((1 + lplus) * (1 + lminus)) with (1 + (lplus + lminus) + lplus * lminus) by ring; rewrite E1, E2; exact F).
  nra.
Qed.
Lemma lminus_le : c = 1 -> 1 / 3 <= x -> lminus <= -1.
Proof.
  intros C X. destruct roots as [E1 E2]. pose proof roots_signs as [S1 S2]. assert (F : 1 + tr + det <= 0) by (unfold tr, det, p; rewrite C; lra).
  assert (G : (1 + lplus) * (1 + lminus) <= 0) by (replace ((1 + lplus) * (1 + lminus)) with (1 + (lplus + lminus) + lplus * lminus) by ring; rewrite E1, E2; exact F).
  nra.
Qed.
(** both are roots of the characteristic polynomial *)
Lemma root_eq l : l = lplus \/ l = lminus -> l * l = tr * l - det.
Proof. destruct roots as [E1 E2]. intros [-> | ->]; rewrite <- E1, <- E2; ring. Qed.
Lemma mode a b l n : recursion x c a b -> l = lplus \/ l = lminus -> c * a n + (l - p) * b n = l ^ n * (c * a 0%nat + (l - p) * b 0%nat).
Proof.
  intros H L. apply root_eq in L. induction n as [|n IH]; [cbn; ring|]. destruct (H n) as [Eb Ea]. rewrite Ea, Eb. cbn [pow]. replace (l * l ^ n * (c * a 0%nat + (l - p) * b 0%nat)) with (l * (c * a n + (l - p) * b n)) by (rewrite IH; ring).
  replace (c * ((1 - 2 * (1 / 5)) * b n + 1 / 5 * (a n + c * (a n - 2 * x * b n))) + (l - p) * (c * (a n - 2 * x * b n)))
    with (c * l * a n + (tr * l - det - p * l) * b n) by (unfold tr, det, p; field).
  rewrite <- L. ring.
Qed.
Lemma b_modes a b n : recursion x c a b ->
  b n = (lplus ^ n * (c * a 0%nat + (lplus - p) * b 0%nat) - lminus ^ n * (c * a 0%nat + (lminus - p) * b 0%nat)) / (lplus - lminus).
Proof.
  intros H. pose proof roots_differ. rewrite <- !(mode a b) by auto. field. lra.
Qed.
Lemma a_modes a b n : recursion x c a b ->
  a n = ((p - lminus) * (lplus ^ n * (c * a 0%nat + (lplus - p) * b 0%nat)) - (p - lplus) * (lminus ^ n * (c * a 0%nat + (lminus - p) * b 0%nat))) / (c * (lplus - lminus)).
Proof.
  intros H. pose proof roots_differ. rewrite <- !(mode a b) by auto. field. lra.
Qed.
Lemma decay a b : recursion x c a b -> x < 1 / 3 -> exists m q, 0 <= q < 1 /\ 0 <= m /\ forall n, Rabs (a n) <= m * q ^ n.
Proof.
  intros H X. pose proof roots_differ as D. pose proof roots_signs as [S1 S2]. pose proof lplus_lt_1. pose proof (lminus_gt X).
  set (q := Rmax lplus (- lminus)). set (u := (p - lminus) * (c * a 0%nat + (lplus - p) * b 0%nat) / (c * (lplus - lminus))).
  set (v := (p - lplus) * (c * a 0%nat + (lminus - p) * b 0%nat) / (c * (lplus - lminus))).
  assert (Q : 0 <= q < 1). { unfold q. split; [apply Rle_trans with lplus; [lra|apply Rmax_l]|]. apply Rmax_lub_lt; lra. }
  exists (Rabs u + Rabs v), q. split; [exact Q|]. split; [pose proof (Rabs_pos u); pose proof (Rabs_pos v); lra|]. intros n.
  rewrite (a_modes a b n H). replace (_ / _) with (u * lplus ^ n - v * lminus ^ n) by (unfold u, v; field; lra).
  assert (P1 : Rabs (lplus ^ n) <= q ^ n). { rewrite <- RPow_abs. apply pow_incr. split; [apply Rabs_pos|]. rewrite Rabs_right by lra. apply Rmax_l. }
  assert (P2 : Rabs (lminus ^ n) <= q ^ n). { rewrite <- RPow_abs. apply pow_incr. split; [apply Rabs_pos|]. rewrite Rabs_left by lra. apply Rmax_r. }
  unfold Rminus. eapply Rle_trans; [apply Rabs_triang|]. rewrite Rabs_Ropp, !Rabs_mult, Rmult_plus_distr_r. apply Rplus_le_compat; apply Rmult_le_compat_l; auto; apply Rabs_pos.
Qed.
(** without diffusion and for x >= 1/3 the second mode does not decay; the Euler
    step excites it *)
Lemma growth a b : recursion x c a b -> c = 1 -> 1 / 3 <= x -> b 0%nat = (1 - x) * a 0%nat -> a 0%nat <> 0 -> x <> 3 / 2 ->
  exists m n0, 0 < m /\ forall n, (n0 <= n)%nat -> m <= Rabs (a n).
Proof.
  intros H C X B0 A0 X2. pose proof roots_differ as D. pose proof roots_signs as [S1 S2]. pose proof lplus_lt_1 as L1. pose proof (lminus_le C X) as L2.
  assert (P : p = 2 / 5) by (unfold p; rewrite C; field).
  set (y := c * a 0%nat + (lminus - p) * b 0%nat).
  assert (Y : y <> 0).
  { unfold y. rewrite B0, C, P. intros E. assert (E' : (1 + (lminus - 2 / 5) * (1 - x)) * a 0%nat = 0) by lra. apply Rmult_integral in E'. destruct E' as [E'|E']; [|contradiction].
    pose proof (root_eq lminus (or_intror eq_refl)) as R. unfold tr, det in R. rewrite P, C in R. clear E.
    assert (X1 : x < 1) by nra.
    set (l := lminus) in *. set (w := 1 - x) in *. assert (W : 0 < w <= 2 / 3) by (unfold w; lra).
    assert (Xw : x = 1 - w) by (unfold w; lra). rewrite Xw in R.
    assert (Lw : l * w = 2 / 5 * w - 1) by lra.
    assert (R2 : (l * w) * (l * w) = (2 / 5 - 2 * (1 - w)) * (l * w) * w + (2 / 5 * (1 - w) + 3 / 5) * (w * w)) by (replace ((l * w) * (l * w)) with ((l * l) * (w * w)) by ring; rewrite R; ring).
    rewrite Lw in R2. assert (F : (1 - w) * (1 - w) * (1 - 2 / 5 * w) = 0) by lra. assert (0 < (1 - w) * (1 - w) * (1 - 2 / 5 * w)) by (apply Rmult_lt_0_compat; [apply Rmult_lt_0_compat|]; lra). lra. }
  assert (LP : p - lplus <> 0).
  { intros E. assert (E' : lplus = 2 / 5) by lra. pose proof (root_eq lplus (or_introl eq_refl)) as R. unfold tr, det in R. rewrite E', P, C in R. lra. }
  set (u := (p - lminus) * (c * a 0%nat + (lplus - p) * b 0%nat) / (c * (lplus - lminus))).
  set (v := (p - lplus) * y / (c * (lplus - lminus))).
  assert (V : v <> 0). { unfold v. apply Rmult_integral_contrapositive_currified; [now apply Rmult_integral_contrapositive_currified|]. apply Rinv_neq_0_compat. apply Rmult_integral_contrapositive_currified; lra. }
  assert (V0 : 0 < Rabs v) by now apply Rabs_pos_lt.
  destruct (pow_lt_1_zero lplus ltac:(rewrite Rabs_right; lra) (Rabs v / 2 / (Rabs u + 1))) as [n0 N0].
  { pose proof (Rabs_pos u). apply Rdiv_lt_0_compat; lra. }
  exists (Rabs v / 2), n0. split; [lra|]. intros n Hn. specialize (N0 n Hn).
  assert (EA : a n = u * lplus ^ n - v * lminus ^ n) by (rewrite (a_modes a b n H); fold y; unfold u, v; field; lra). rewrite EA.
  assert (P2 : 1 <= Rabs (lminus ^ n)). { rewrite <- RPow_abs. apply pow_R1_Rle. rewrite Rabs_left by lra. lra. }
  assert (Q1 : Rabs (u * lplus ^ n) <= Rabs v / 2).
  { rewrite Rabs_mult. pose proof (Rabs_pos u). apply Rle_trans with ((Rabs u + 1) * (Rabs v / 2 / (Rabs u + 1))); [|right; field; lra].
    apply Rmult_le_compat; [apply Rabs_pos|apply Rabs_pos|lra|lra]. }
  assert (Q2 : Rabs v <= Rabs (v * lminus ^ n)) by (rewrite Rabs_mult; nra).
  pose proof (Rabs_triang_inv (v * lminus ^ n) (u * lplus ^ n)) as Q3. rewrite Rabs_minus_sym in Q3. lra.
Qed.
End Eigen.
