(** Sums over equally spaced angles and periodic functions of integers. *)
From Verif Require Import Base Proofs_Base.
From Coq Require Import List Lia Lra.
Open Scope R_scope.

Lemma cos_turns x (n : Z) : cos (x + 2 * PI * IZR n) = cos x.
Proof.
  destruct (Z_le_gt_dec 0 n) as [L|L].
  - rewrite <- (Z2Nat.id n L), <- INR_IZR_INZ. rewrite <- (cos_period x (Z.to_nat n)). f_equal. ring.
  - rewrite <- (cos_period (x + 2 * PI * IZR n) (Z.to_nat (- n))). f_equal. rewrite INR_IZR_INZ, Z2Nat.id by lia. rewrite opp_IZR. ring.
Qed.
Lemma sin_turns x (n : Z) : sin (x + 2 * PI * IZR n) = sin x.
Proof.
  destruct (Z_le_gt_dec 0 n) as [L|L].
  - rewrite <- (Z2Nat.id n L), <- INR_IZR_INZ. rewrite <- (sin_period x (Z.to_nat n)). f_equal. ring.
  - rewrite <- (sin_period (x + 2 * PI * IZR n) (Z.to_nat (- n))). f_equal. rewrite INR_IZR_INZ, Z2Nat.id by lia. rewrite opp_IZR. ring.
Qed.

(** the j-th of n equally spaced angles, times the wavenumber m *)
Definition ang (n : nat) (m : Z) (j : nat) : R := 2 * PI * (IZR m * INR j) / INR n.

Lemma sin_half_ne n m : (0 < n)%nat -> ~ (Z.of_nat n | m)%Z -> sin (PI * IZR m / INR n) <> 0.
Proof.
  intros N D H. apply sin_eq_0_0 in H. destruct H as [k K]. apply D. exists k.
  assert (0 < INR n) by now apply lt_0_INR. pose proof PI_RGT_0.
  assert (IZR m / INR n = IZR k).
  { apply (Rmult_eq_reg_l PI); [|lra]. transitivity (PI * IZR m / INR n); [field; lra|rewrite K; ring]. }
  apply eq_IZR. rewrite mult_IZR, <- INR_IZR_INZ. rewrite <- H1. field. lra.
Qed.
Lemma sum_cos_phase n m p : (0 < n)%nat -> ~ (Z.of_nat n | m)%Z -> Rsum (tab n (fun j => cos (ang n m j + p))) = 0.
Proof.
  intros N D. pose proof (sin_half_ne n m N D) as S0. assert (P : 0 < INR n) by now apply lt_0_INR.
  set (h := PI * IZR m / INR n) in *.
  apply (Rmult_eq_reg_l (2 * sin h)); [|lra]. rewrite Rmult_0_r, <- Rsum_tab_scal.
  pose (f := fun j : nat => sin ((2 * INR j - 1) * h + p)).
  rewrite (tab_ext n _ (fun j => f (S j) - f j)).
  - rewrite Rsum_telescope. unfold f.
    replace ((2 * INR n - 1) * h + p) with (((2 * INR 0 - 1) * h + p) + 2 * PI * IZR m); [rewrite sin_turns; ring|].
    cbn [INR]. unfold h. field. lra.
  - intros j _. unfold f. rewrite S_INR.
    replace ((2 * (INR j + 1) - 1) * h + p) with (ang n m j + p + h) by (unfold ang, h; field; lra).
    replace ((2 * INR j - 1) * h + p) with (ang n m j + p - h) by (unfold ang, h; field; lra).
    rewrite sin_plus, sin_minus. ring.
Qed.
Lemma ang_div n m j : (0 < n)%nat -> (Z.of_nat n | m)%Z -> exists k : Z, ang n m j = 2 * PI * IZR k.
Proof.
  intros N [q ->]. exists (q * Z.of_nat j)%Z. unfold ang. rewrite !mult_IZR, <- !INR_IZR_INZ.
  assert (0 < INR n) by now apply lt_0_INR. field. lra.
Qed.
Lemma sum_cos_phase_div n m p : (0 < n)%nat -> (Z.of_nat n | m)%Z -> Rsum (tab n (fun j => cos (ang n m j + p))) = INR n * cos p.
Proof.
  intros N D. rewrite <- Rsum_tab_const. f_equal. apply tab_ext. intros j _. destruct (ang_div n m j N D) as [k ->].
  rewrite Rplus_comm. apply cos_turns.
Qed.

(** Sums over a period *)
Lemma Rsum_period_1 n (f : Z -> R) : (forall k, f (k + Z.of_nat n)%Z = f k) -> forall s,
  Rsum (tab n (fun i => f (Z.of_nat i + (s + 1))%Z)) = Rsum (tab n (fun i => f (Z.of_nat i + s)%Z)).
Proof.
  intros P s. pose (F := fun i : nat => Rsum (tab i (fun k => f (Z.of_nat k + s)%Z))).
  assert (A : forall i, Rsum (tab i (fun k => f (Z.of_nat k + (s + 1))%Z)) = F i - f s + f (Z.of_nat i + s)%Z).
  { induction i as [|i IH]; [cbn; ring|].
    rewrite Rsum_tab_S, IH. unfold F. rewrite Rsum_tab_S.
    replace (Z.of_nat i + (s + 1))%Z with (Z.of_nat (S i) + s)%Z by lia. ring. }
  rewrite A. unfold F. rewrite (Z.add_comm (Z.of_nat n) s), P. ring.
Qed.
Lemma Rsum_period n (f : Z -> R) : (forall k, f (k + Z.of_nat n)%Z = f k) -> forall s,
  Rsum (tab n (fun i => f (Z.of_nat i + s)%Z)) = Rsum (tab n (fun i => f (Z.of_nat i))).
Proof.
  intros P. assert (Z0 : Rsum (tab n (fun i => f (Z.of_nat i + 0)%Z)) = Rsum (tab n (fun i => f (Z.of_nat i)))).
  { f_equal. apply tab_ext. intros i _. now rewrite Z.add_0_r. }
  apply (Z.bi_induction (fun s => Rsum (tab n (fun i => f (Z.of_nat i + s)%Z)) = Rsum (tab n (fun i => f (Z.of_nat i))))).
  - intros ? ? ->. reflexivity.
  - exact Z0.
  - intros s. rewrite <- Z.add_1_r, Rsum_period_1 by exact P. reflexivity.
Qed.
Lemma Rsum_tab_rev n f : Rsum (tab n (fun i => f (n - 1 - i)%nat)) = Rsum (tab n f).
Proof.
  rewrite <- (Rsum_rev (tab n f)). f_equal. apply (list_eq_nth 0); [now rewrite rev_length, !tab_length|].
  intros i Hi. rewrite tab_length in Hi. rewrite rev_nth by now rewrite tab_length. rewrite tab_length, !tab_nth by lia. f_equal. lia.
Qed.
Lemma Rsum_tab_le n f g : (forall i, (i < n)%nat -> f i <= g i) -> Rsum (tab n f) <= Rsum (tab n g).
Proof. intros H. apply Rsum_le. intros i Hi. apply in_seq in Hi. apply H. lia. Qed.
Lemma Rsum_tab_scal_r n c f : Rsum (tab n (fun i => f i * c)) = Rsum (tab n f) * c.
Proof. rewrite Rmult_comm, <- Rsum_tab_scal. f_equal. apply tab_ext. intros. ring. Qed.
Lemma Rsum_tab_minus n f g : Rsum (tab n (fun i => f i - g i)) = Rsum (tab n f) - Rsum (tab n g).
Proof. apply Rsum_map_minus. Qed.
Lemma Rsum_tab_zero n f : (forall i, (i < n)%nat -> f i = 0) -> Rsum (tab n f) = 0.
Proof. intros H. rewrite (tab_ext n f (fun _ => 0)) by exact H. rewrite Rsum_tab_const. ring. Qed.
Lemma Rsum_tab_one n f i : (i < n)%nat -> (forall j, (j < n)%nat -> j <> i -> f j = 0) -> Rsum (tab n f) = f i.
Proof.
  induction n as [|n IH]; intros Hi H; [lia|]. rewrite Rsum_tab_S. destruct (Nat.eq_dec i n) as [->|Ne].
  - rewrite Rsum_tab_zero; [ring|]. intros j Hj. apply H; lia.
  - rewrite IH, (H n) by (try lia; intros; apply H; lia). ring.
Qed.
Lemma Rsum_ext_tab v : Rsum v = Rsum (tab (length v) (fun i => nth i v 0)).
Proof. f_equal. apply nth_ext_tab. Qed.
