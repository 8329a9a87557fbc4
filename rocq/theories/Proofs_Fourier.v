(** Zonal Fourier analysis: proofs. *)
From Coq Require Export String.
From Verif Require Import Base Model_Grid Model_Fourier Proofs_Base Proofs_Trig.
From Verif Require Import Model_Region.
From Coq Require Import List Lia Lra.
Open Scope R_scope.

Lemma angle_ang n k j : angle n k j = ang n (Z.of_nat k) j.
Proof. unfold angle, ang. now rewrite <- INR_IZR_INZ. Qed.

Section Even.
Variable h : nat.
Hypothesis H1 : (1 <= h)%nat.
Let n := (2 * h)%nat.
Lemma n_pos : (0 < n)%nat. Proof. unfold n. lia. Qed.
Lemma Rn_pos : 0 < INR n. Proof. apply lt_0_INR, n_pos. Qed.

(** norm of the cosine and sine waves with wavenumber k *)
Definition edge (k : nat) : bool := Nat.eqb k 0 || Nat.eqb k h.
Definition cnorm (k : nat) : R := if edge k then INR n else INR n / 2.
Definition snorm (k : nat) : R := if edge k then 0 else INR n / 2.
Definition cfac (k : nat) : R := if edge k then 1 else 2.
Lemma cfac_cnorm k : cfac k * cnorm k = INR n.
Proof. unfold cfac, cnorm. destruct (edge k); field. Qed.

Definition dsum (m : Z) (p : R) : R := Rsum (tab n (fun j => cos (ang n m j + p))).
Lemma dsum_eq k l p : (k <= h)%nat -> (l <= h)%nat -> dsum (Z.of_nat k - Z.of_nat l) p = if Nat.eqb k l then INR n * cos p else 0.
Proof.
  intros Hk Hl. unfold dsum. destruct (Nat.eqb_spec k l) as [->|Ne].
  - apply sum_cos_phase_div; [apply n_pos|]. rewrite Z.sub_diag. exists 0%Z. lia.
  - apply sum_cos_phase; [apply n_pos|]. intros [q Q]. unfold n in Q. assert (q = 0 \/ q <> 0)%Z as [->|] by lia; [lia|]. nia.
Qed.
Lemma dsum_plus k l p : (k <= h)%nat -> (l <= h)%nat -> dsum (Z.of_nat k + Z.of_nat l) p = if Nat.eqb k l && edge k then INR n * cos p else 0.
Proof.
  intros Hk Hl. unfold dsum. destruct (Nat.eqb_spec k l) as [->|Ne]; cbn [andb].
  - unfold edge. destruct (Nat.eqb_spec l 0) as [->|N0]; cbn [orb].
    + apply sum_cos_phase_div; [apply n_pos|]. exists 0%Z. lia.
    + destruct (Nat.eqb_spec l h) as [->|Nh].
      * apply sum_cos_phase_div; [apply n_pos|]. exists 1%Z. unfold n. lia.
      * apply sum_cos_phase; [apply n_pos|]. intros [q Q]. unfold n in Q. assert (q = 0 \/ q = 1 \/ q < 0 \/ 1 < q)%Z as [->|[->|[]]] by lia; try lia; nia.
  - apply sum_cos_phase; [apply n_pos|]. intros [q Q]. unfold n in Q. assert (q = 0 \/ q = 1 \/ q < 0 \/ 1 < q)%Z as [->|[->|[]]] by lia; try lia; nia.
Qed.
Lemma angle_minus k l j : angle n k j - angle n l j = ang n (Z.of_nat k - Z.of_nat l) j.
Proof. unfold angle, ang. rewrite minus_IZR, <- !INR_IZR_INZ. pose proof Rn_pos. field. lra. Qed.
Lemma angle_plus k l j : angle n k j + angle n l j = ang n (Z.of_nat k + Z.of_nat l) j.
Proof. unfold angle, ang. rewrite plus_IZR, <- !INR_IZR_INZ. pose proof Rn_pos. field. lra. Qed.
Lemma CC k l : (k <= h)%nat -> (l <= h)%nat -> Rsum (tab n (fun j => cos (angle n k j) * cos (angle n l j))) = if Nat.eqb k l then cnorm k else 0.
Proof.
  intros Hk Hl. rewrite (tab_ext _ _ (fun j => / 2 * cos (ang n (Z.of_nat k - Z.of_nat l) j + 0) + / 2 * cos (ang n (Z.of_nat k + Z.of_nat l) j + 0))).
  - rewrite Rsum_tab_plus, !Rsum_tab_scal. fold (dsum (Z.of_nat k - Z.of_nat l) 0). fold (dsum (Z.of_nat k + Z.of_nat l) 0).
    rewrite dsum_eq, dsum_plus, cos_0 by assumption. unfold cnorm. destruct (Nat.eqb k l); cbn [andb]; [destruct (edge k)|]; field.
  - intros j _. rewrite !Rplus_0_r, <- angle_minus, <- angle_plus, cos_minus, cos_plus. field.
Qed.
Lemma SS k l : (k <= h)%nat -> (l <= h)%nat -> Rsum (tab n (fun j => sin (angle n k j) * sin (angle n l j))) = if Nat.eqb k l then snorm k else 0.
Proof.
  intros Hk Hl. rewrite (tab_ext _ _ (fun j => / 2 * cos (ang n (Z.of_nat k - Z.of_nat l) j + 0) + - / 2 * cos (ang n (Z.of_nat k + Z.of_nat l) j + 0))).
  - rewrite Rsum_tab_plus, !Rsum_tab_scal. fold (dsum (Z.of_nat k - Z.of_nat l) 0). fold (dsum (Z.of_nat k + Z.of_nat l) 0).
    rewrite dsum_eq, dsum_plus, cos_0 by assumption. unfold snorm. destruct (Nat.eqb k l); cbn [andb]; [destruct (edge k)|]; field.
  - intros j _. rewrite !Rplus_0_r, <- angle_minus, <- angle_plus, cos_minus, cos_plus. field.
Qed.
Lemma CS k l : (k <= h)%nat -> (l <= h)%nat -> Rsum (tab n (fun j => cos (angle n k j) * sin (angle n l j))) = 0.
Proof.
  intros Hk Hl. rewrite (tab_ext _ _ (fun j => - / 2 * cos (ang n (Z.of_nat k - Z.of_nat l) j + - (PI / 2)) + / 2 * cos (ang n (Z.of_nat k + Z.of_nat l) j + - (PI / 2)))).
  - rewrite Rsum_tab_plus, !Rsum_tab_scal. fold (dsum (Z.of_nat k - Z.of_nat l) (- (PI / 2))). fold (dsum (Z.of_nat k + Z.of_nat l) (- (PI / 2))).
    rewrite dsum_eq, dsum_plus, cos_neg, cos_PI2 by assumption. destruct (Nat.eqb k l); cbn [andb]; [destruct (edge k)|]; field.
  - intros j _. rewrite <- angle_minus, <- angle_plus. rewrite !(cos_plus _ (- (PI / 2))), cos_neg, sin_neg, cos_PI2, sin_PI2, sin_minus, sin_plus. field.
Qed.
Lemma sin_edge k j : edge k = true -> sin (angle n k j) = 0.
Proof.
  intros E. unfold edge in E. apply orb_true_iff in E. pose proof Rn_pos as P. destruct E as [E|E]; apply Nat.eqb_eq in E; subst k.
  - unfold angle. cbn [INR]. replace (2 * PI * (0 * INR j) / INR n) with 0 by (field; lra). apply sin_0.
  - apply sin_eq_0_1. exists (Z.of_nat j). rewrite <- INR_IZR_INZ. unfold angle. rewrite (mult_INR 2 h : INR n = _) in *. cbn [INR] in *. field. lra.
Qed.

(** Coefficients of a function on the circle *)
Definition A (f : nat -> R) (k : nat) : R := Rsum (tab n (fun j => f j * cos (angle n k j))).
Definition B (f : nat -> R) (k : nat) : R := Rsum (tab n (fun j => f j * sin (angle n k j))).
Definition wave (a b : R) (k j : nat) : R := a * cos (angle n k j) + b * sin (angle n k j).
Lemma A_wave a b l k : (l <= h)%nat -> (k <= h)%nat -> A (wave a b l) k = if Nat.eqb k l then a * cnorm k else 0.
Proof.
  intros Hl Hk. unfold A, wave. rewrite (tab_ext _ _ (fun j => a * (cos (angle n k j) * cos (angle n l j)) + b * (cos (angle n k j) * sin (angle n l j)))) by (intros; ring).
  rewrite Rsum_tab_plus, !Rsum_tab_scal, CC, CS by assumption. destruct (Nat.eqb k l); ring.
Qed.
Lemma B_wave a b l k : (l <= h)%nat -> (k <= h)%nat -> B (wave a b l) k = if Nat.eqb k l then b * snorm k else 0.
Proof.
  intros Hl Hk. unfold B, wave. rewrite (tab_ext _ _ (fun j => a * (cos (angle n l j) * sin (angle n k j)) + b * (sin (angle n k j) * sin (angle n l j)))) by (intros; ring).
  rewrite Rsum_tab_plus, !Rsum_tab_scal, SS, CS by assumption. destruct (Nat.eqb k l); ring.
Qed.
Lemma B_edge f k : edge k = true -> B f k = 0.
Proof. intros E. unfold B. apply Rsum_tab_zero. intros j _. rewrite sin_edge by exact E. ring. Qed.
Lemma A_sum (F : nat -> nat -> R) m k : A (fun j => Rsum (tab m (fun i => F i j))) k = Rsum (tab m (fun i => A (F i) k)).
Proof.
  unfold A. rewrite Rsum_tab_swap. f_equal. apply tab_ext. intros j _. now rewrite Rsum_tab_scal_r.
Qed.
Lemma B_sum (F : nat -> nat -> R) m k : B (fun j => Rsum (tab m (fun i => F i j))) k = Rsum (tab m (fun i => B (F i) k)).
Proof.
  unfold B. rewrite Rsum_tab_swap. f_equal. apply tab_ext. intros j _. now rewrite Rsum_tab_scal_r.
Qed.
Lemma A_ext f g k : (forall j, (j < n)%nat -> f j = g j) -> A f k = A g k.
Proof. intros H. unfold A. f_equal. apply tab_ext. intros j Hj. now rewrite H. Qed.
Lemma B_ext f g k : (forall j, (j < n)%nat -> f j = g j) -> B f k = B g k.
Proof. intros H. unfold B. f_equal. apply tab_ext. intros j Hj. now rewrite H. Qed.

(** Synthesis from the coefficients with wavenumbers selected by q *)
Definition synth (q : nat -> R) (f : nat -> R) (j : nat) : R :=
  Rsum (tab (h + 1) (fun k => wave (q k * cfac k / INR n * A f k) (q k * cfac k / INR n * B f k) k j)).
Lemma A_synth q f k : (k <= h)%nat -> A (synth q f) k = q k * A f k.
Proof.
  intros Hk. unfold synth. rewrite A_sum. rewrite (Rsum_tab_one _ _ k) by first [lia | intros j Hj Ne; rewrite A_wave by lia; destruct (Nat.eqb_spec k j); [congruence|reflexivity]].
  rewrite A_wave, Nat.eqb_refl by assumption. pose proof (cfac_cnorm k). pose proof Rn_pos.
  replace (q k * cfac k / INR n * A f k * cnorm k) with (q k * (cfac k * cnorm k) / INR n * A f k) by (field; lra). rewrite H. field. lra.
Qed.
Lemma B_synth q f k : (k <= h)%nat -> B (synth q f) k = q k * B f k.
Proof.
  intros Hk. destruct (edge k) eqn:E; [rewrite !B_edge by exact E; ring|].
  unfold synth. rewrite B_sum. rewrite (Rsum_tab_one _ _ k) by first [lia | intros j Hj Ne; rewrite B_wave by lia; destruct (Nat.eqb_spec k j); [congruence|reflexivity]].
  rewrite B_wave, Nat.eqb_refl by assumption. pose proof Rn_pos. unfold cfac, snorm. rewrite E. field. lra.
Qed.
Lemma synth_wave q a b l j : (l <= h)%nat -> synth q (wave a b l) j = q l * wave a b l j.
Proof.
  intros Hl. unfold synth. rewrite (Rsum_tab_one _ _ l).
  - rewrite A_wave, B_wave, Nat.eqb_refl by lia. pose proof Rn_pos as P. unfold wave, cfac, cnorm, snorm.
    destruct (edge l) eqn:E; [rewrite sin_edge by exact E|]; field; lra.
  - lia.
  - intros k Hk Ne. rewrite A_wave, B_wave by lia. destruct (Nat.eqb_spec k l); [congruence|]. unfold wave. ring.
Qed.
Lemma cfac_sum (g : nat -> R) : (forall k, (1 <= k <= h)%nat -> g (h + (h - k))%nat = g k) ->
  Rsum (tab (h + 1) (fun k => cfac k * g k)) = Rsum (tab n g).
Proof.
  intros Sy. unfold n. replace (2 * h)%nat with (h + h)%nat by lia.
  assert (T : forall m, Rsum (tab (h + m) g) = Rsum (tab h g) + Rsum (tab m (fun k => g (h + k)%nat))).
  { induction m as [|m IH]; [rewrite Nat.add_0_r; cbn; ring|]. rewrite Nat.add_succ_r, !Rsum_tab_S, IH. ring. }
  rewrite T. rewrite <- (Rsum_tab_rev h (fun k => g (h + k)%nat)).
  rewrite (tab_ext h (fun i => g (h + (h - 1 - i))%nat) (fun i => g (S i))).
  2:{ intros i Hi. rewrite <- (Sy (S i)) by lia. f_equal. lia. }
  assert (U : Rsum (tab (h + 1) (fun k => cfac k * g k)) = Rsum (tab h (fun k => cfac k * g k)) + g h).
  { rewrite Nat.add_1_r, Rsum_tab_S. unfold cfac, edge. rewrite Nat.eqb_refl, orb_true_r. ring. }
  rewrite U. clear U.
  assert (V : forall m, (1 <= m <= h)%nat -> Rsum (tab m (fun k => cfac k * g k)) + g m = Rsum (tab m g) + Rsum (tab m (fun i => g (S i)))).
  { induction m as [|m IH]; [lia|]. intros Hm. rewrite !Rsum_tab_S. destruct m as [|m].
    - cbn. unfold cfac, edge. cbn. ring.
    - pose proof (IH ltac:(lia)) as I1. rewrite !Rsum_tab_S in I1. rewrite !Rsum_tab_S.
      assert (C : cfac (S m) = 2) by (unfold cfac, edge; destruct (Nat.eqb_spec (S m) 0); [lia|]; destruct (Nat.eqb_spec (S m) h); [lia|]; reflexivity).
      rewrite C. lra. }
  apply V. lia.
Qed.
Lemma synth_all f j : (j < n)%nat -> synth (fun _ => 1) f j = f j.
Proof.
  intros Hj. pose proof Rn_pos as P. unfold synth.
  rewrite (tab_ext _ _ (fun k => / INR n * (cfac k * Rsum (tab n (fun l => f l * cos (angle n k j - angle n k l)))))).
  - rewrite Rsum_tab_scal. rewrite cfac_sum.
    + rewrite Rsum_tab_swap. rewrite (Rsum_tab_one _ _ j Hj).
      * rewrite (tab_ext _ _ (fun _ => f j)) by (intros; rewrite Rminus_diag_eq, cos_0 by reflexivity; ring).
        rewrite Rsum_tab_const. field. lra.
      * intros l Hl Ne. rewrite Rsum_tab_scal.
        rewrite (tab_ext _ _ (fun k => cos (ang n (Z.of_nat j - Z.of_nat l) k + 0))).
        -- rewrite sum_cos_phase; [ring|apply n_pos|]. intros [q Q]. assert (q = 0 \/ q <> 0)%Z as [->|] by lia; [lia|]. nia.
        -- intros k _. f_equal. unfold angle, ang. rewrite minus_IZR, <- !INR_IZR_INZ. field. lra.
    + intros k Hk. f_equal. apply tab_ext. intros l _. f_equal.
      replace (angle n (h + (h - k)) j - angle n (h + (h - k)) l) with (- (angle n k j - angle n k l) + 2 * PI * IZR (Z.of_nat j - Z.of_nat l)).
      * rewrite cos_turns, cos_neg. reflexivity.
      * unfold angle. rewrite minus_IZR, <- !INR_IZR_INZ. rewrite plus_INR, minus_INR by lia.
        assert (E : INR n = 2 * INR h) by (unfold n; rewrite mult_INR; reflexivity). rewrite E in *. field. lra.
  - intros k Hk. unfold wave, A, B. rewrite !Rmult_assoc. unfold Rdiv.
    rewrite (tab_ext n (fun l => f l * cos (angle n k j - angle n k l)) (fun l => f l * cos (angle n k l) * cos (angle n k j) + f l * sin (angle n k l) * sin (angle n k j))) by (intros; rewrite cos_minus; ring).
    rewrite Rsum_tab_plus, !Rsum_tab_scal_r. ring.
Qed.

(** ** The code in these terms *)
Definition fn (x : vec) (j : nat) : R := nth j x 0.
Definition inside (kmin kmax k : nat) : R := if Nat.ltb k kmin || Nat.leb (kmax + 1) k then 0 else 1.
Lemma half_n : (n / 2 = h)%nat.
Proof. unfold n. rewrite Nat.mul_comm. apply Nat.div_mul. lia. Qed.
Lemma dft_AB x k : length x = n -> dft x k = (A (fn x) k, - B (fn x) k).
Proof. intros L. unfold dft. rewrite L. reflexivity. Qed.
Lemma rfft_form x : length x = n -> rfft x = Ok (tab (h + 1) (fun k => (A (fn x) k, - B (fn x) k))).
Proof.
  intros L. unfold rfft. destruct x as [|y x]; [cbn in L; pose proof n_pos; lia|]. rewrite L, half_n. f_equal. apply tab_ext. intros k _. now apply dft_AB.
Qed.
Lemma restrict_form kmin kmax x : length x = n -> restrict_row kmin kmax x = Ok (tab n (synth (inside kmin kmax) (fn x))).
Proof.
  intros L. unfold restrict_row. rewrite rfft_form by exact L. cbn [bind]. unfold irfft, keep. rewrite !tab_length.
  replace (2 * (h + 1 - 1))%nat with n by (unfold n; lia). destruct (Nat.eqb_spec n 0) as [E|_]; [pose proof n_pos; lia|].
  f_equal. apply tab_ext. intros j Hj. unfold synth, Rdiv. rewrite <- Rsum_tab_scal_r. f_equal. apply tab_ext. intros k Hk. cbv zeta.
  rewrite tab_nth by exact Hk. rewrite tab_nth by exact Hk. rewrite half_n. unfold inside, wave, cfac. fold (edge k).
  destruct (_ || _); [ring|]. destruct (edge k); ring.
Qed.
Lemma hilbert_form x j : length x = n -> (j < n)%nat ->
  nth j (hilbert x) (0, 0) = (fn x j, Rsum (tab (h + 1) (fun k => cfac k / INR n * (A (fn x) k * sin (angle n k j) - B (fn x) k * cos (angle n k j))))).
Proof.
  intros L Hj. unfold hilbert. rewrite L, tab_nth by exact Hj.
  assert (HF : forall (F : nat -> R), Rsum (tab n (fun k => hilbert_factor n k * F k)) = Rsum (tab (h + 1) (fun k => cfac k * F k))).
  { intros F. assert (G : forall m, (h + 1 + m <= n)%nat -> Rsum (tab (h + 1 + m) (fun k => hilbert_factor n k * F k)) = Rsum (tab (h + 1) (fun k => cfac k * F k))).
    { induction m as [|m IH]; intros Hm.
      - rewrite Nat.add_0_r. f_equal. apply tab_ext. intros k Hk. f_equal. unfold hilbert_factor, cfac, edge. rewrite half_n.
        replace (Nat.even n) with true by (symmetry; apply Nat.even_spec; exists h; reflexivity).
        destruct (Nat.eqb_spec k 0); [reflexivity|]. cbn [orb]. destruct (Nat.ltb_spec k h); destruct (Nat.eqb_spec k h); try lia; reflexivity.
      - rewrite Nat.add_succ_r, Rsum_tab_S, IH by lia. unfold hilbert_factor. rewrite half_n.
        replace (Nat.even n) with true by (symmetry; apply Nat.even_spec; exists h; reflexivity).
        destruct (Nat.eqb_spec (h + 1 + m) 0); [lia|]. destruct (Nat.ltb_spec (h + 1 + m) h); [lia|]. destruct (Nat.eqb_spec (h + 1 + m) h); [lia|]. ring. }
    rewrite <- (G (n - (h + 1))%nat) by (unfold n; lia). do 2 f_equal. unfold n. lia. }
  f_equal.
  - rewrite (tab_ext _ _ (fun k => hilbert_factor n k * (A (fn x) k * cos (angle n k j) - - B (fn x) k * sin (angle n k j)))) by (intros k _; now rewrite dft_AB).
    rewrite HF. rewrite <- (synth_all (fn x) j Hj) at 1. unfold synth, Rdiv. rewrite <- Rsum_tab_scal_r. f_equal. apply tab_ext. intros k _. unfold wave. ring.
  - rewrite (tab_ext _ _ (fun k => hilbert_factor n k * (A (fn x) k * sin (angle n k j) + - B (fn x) k * cos (angle n k j)))) by (intros k _; now rewrite dft_AB).
    rewrite HF. unfold Rdiv. rewrite <- Rsum_tab_scal_r. f_equal. apply tab_ext. intros k _. ring.
Qed.
Lemma hilbert_wave x a b l j : length x = n -> (forall i, (i < n)%nat -> fn x i = wave a b l i) -> (l <= h)%nat -> (j < n)%nat ->
  nth j (hilbert x) (0, 0) = (wave a b l j, if edge l then 0 else a * sin (angle n l j) - b * cos (angle n l j)).
Proof.
  intros L W Hl Hj. rewrite hilbert_form by assumption. f_equal; [now apply W|]. rewrite (Rsum_tab_one _ _ l).
  - rewrite (A_ext _ _ l W), (B_ext _ _ l W), A_wave, B_wave, Nat.eqb_refl by assumption. pose proof Rn_pos. unfold cfac, cnorm, snorm.
    destruct (edge l) eqn:E; [rewrite (sin_edge l j E)|]; field; lra.
  - lia.
  - intros k Hk Ne. rewrite (A_ext _ _ k W), (B_ext _ _ k W), A_wave, B_wave by lia. destruct (Nat.eqb_spec k l); [congruence|]. ring.
Qed.
End Even.
