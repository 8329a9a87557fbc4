(** Selection of single coordinates in double precision. *)
From Coq Require Import Reals ZArith Lia Lra List Bool.
From Flocq Require Import Core Relative.
From Verif Require Import Base Model_Grid Model_Float Model_FloatGrid Model_FloatPick Spec_Float Spec_FloatGrid Spec_FloatPick Proofs_Base Proofs_Float Proofs_FloatRun Proofs_FloatGrid.
From Flocq Require Import BinarySingleNaN.
Import ListNotations.
Open Scope R_scope.

Lemma denotes_abs x r : denotes x r -> denotes (SFabs x) (Rabs r).
Proof.
  intros (V & F & E). split; [destruct x; exact V|]. split; [destruct x; try contradiction; exact I|].
  destruct x as [s|s| |s m e]; try contradiction; cbn [SFabs float_value] in *; [subst r; now rewrite Rabs_R0|].
  assert (P : 0 <= IZR (Z.pos m) * powerRZ 2 e) by (apply Rmult_le_pos; [now apply IZR_le|left; apply powerRZ_lt; lra]).
  subst r. destruct s; [rewrite <- Ropp_mult_distr_l, Rabs_Ropp|]; symmetry; now apply Rabs_pos_eq.
Qed.
Definition atol : R := 6044629098073146 * / 604462909807314587353088.
Definition rtol : R := 5902958103587057 * / 590295810358705651712.
Lemma denotes_atol : denotes atol_b64 atol.
Proof.
  split; [reflexivity|]. split; [exact I|]. unfold atol_b64, float_value, atol. change 2 with (IZR (radix_val radix2)). rewrite <- bpow_powerRZ. reflexivity.
Qed.
Lemma denotes_rtol : denotes rtol_b64 rtol.
Proof.
  split; [reflexivity|]. split; [exact I|]. unfold rtol_b64, float_value, rtol. change 2 with (IZR (radix_val radix2)). rewrite <- bpow_powerRZ. reflexivity.
Qed.
Lemma tolerance_value v : tolerance v = / 100000000 + / 100000 * Rabs v.
Proof. unfold tolerance. rewrite (pow_IZR 10 8), (pow_IZR 10 5). reflexivity. Qed.
Lemma p42 : / 2 ^ 42 = / 4398046511104. Proof. rewrite (pow_IZR 2 42). reflexivity. Qed.
Lemma p49 : / 2 ^ 49 = / 562949953421312. Proof. rewrite (pow_IZR 2 49). reflexivity. Qed.

Lemma isclose_finite a b c v : denotes a c -> denotes b v -> Rabs c <= 2 ^ 20 -> Rabs v <= 2 ^ 52 ->
  isclose_b64 a b = Rleb (rnd (Rabs (rnd (c - v)))) (rnd (atol + rnd (rtol * Rabs v))) \/ (isclose_b64 a b = true /\ c = v).
Proof.
  intros Ha Hb Hc Hv. assert (P52 : 2 ^ 52 = 4503599627370496) by (rewrite (pow_IZR 2 52); reflexivity). assert (P20 : 2 ^ 20 = 1048576) by (rewrite (pow_IZR 2 20); reflexivity). rewrite P52 in Hv. rewrite P20 in Hc.
  pose proof (Rabs_pos v) as V0.
  assert (D1 : denotes (b64_sub a b) (rnd (c - v))).
  { apply denotes_sub_rnd; try assumption. rewrite p53. pose proof (Rabs_triang c (- v)). rewrite Rabs_Ropp in H. unfold Rminus. lra. }
  assert (D2 : denotes (b64_mul rtol_b64 (SFabs b)) (rnd (rtol * Rabs v))).
  { apply denotes_mul_rnd; [apply denotes_rtol|now apply denotes_abs|]. rewrite p53. rewrite Rabs_pos_eq by (unfold rtol; lra). unfold rtol. lra. }
  assert (D3 : denotes (b64_add atol_b64 (b64_mul rtol_b64 (SFabs b))) (rnd (atol + rnd (rtol * Rabs v)))).
  { apply denotes_add_rnd; [apply denotes_atol|exact D2|]. rewrite p53. pose proof (rnd_err (rtol * Rabs v)) as E. rewrite hu, (Rabs_pos_eq (rtol * Rabs v)) in E by (unfold rtol; lra). pose proof tiny.
    apply Rabs_le_inv in E. unfold atol, rtol in *. apply Rabs_le. lra. }
  assert (F : isfinite_b64 b = true) by (destruct Hb as (_ & F & _); destruct b; try contradiction; reflexivity).
  unfold isclose_b64. rewrite F, andb_true_r. pose proof (denotes_abs _ _ D1) as D1a. rewrite (denotes_le _ _ _ _ D1a D3).
  assert (E : rnd (Rabs (rnd (c - v))) = Rabs (rnd (c - v))) by (now apply (rnd_exact (SFabs (b64_sub a b)))). rewrite E.
  destruct (SFeqb a b) eqn:Q; [|left; apply orb_false_r]. right. split; [apply orb_true_r|].
  apply denotes_B in Ha, Hb. destruct Ha as (ba & -> & Fa & <-), Hb as (bb & -> & Fb & <-). change (Beqb ba bb = true) in Q. rewrite Beqb_correct in Q by assumption. revert Q. case Req_bool_spec; [auto|discriminate].
Qed.
Lemma tol_bounds v : Rabs v <= 2 ^ 52 -> (1 - / 1125899906842624) * tolerance v - / 17592186044416 <= rnd (atol + rnd (rtol * Rabs v)) <= (1 + / 1125899906842624) * tolerance v + / 17592186044416.
Proof.
  intros Hv. rewrite tolerance_value. pose proof (Rabs_pos v) as V0. set (w := Rabs v) in *. clearbody w. pose proof tiny as [T0 T1]. set (t := / 2 ^ 100) in *.
  pose proof (rnd_err (rtol * w)) as E1. rewrite (Rabs_pos_eq (rtol * w)) in E1 by (unfold rtol; lra). set (p := rnd (rtol * w)) in *.
  pose proof (rnd_err (atol + p)) as E2. fold t in E1, E2. rewrite hu in *. clearbody p t. apply Rabs_le_inv in E1.
  assert (P : - / 17592186044416 <= atol + p) by (unfold atol, rtol in *; lra). unfold Rabs in E2 at 2. apply Rabs_le_inv in E2. destruct (Rcase_abs (atol + p)); unfold atol, rtol in *; lra.
Qed.
Lemma close_near a b c c0 v : denotes a c -> denotes b v -> Rabs c0 <= 400 -> Rabs v <= 2 ^ 52 -> Rabs (c - c0) <= / 2 ^ 43 -> clearly_near c0 v -> isclose_b64 a b = true.
Proof.
  intros Ha Hb Hc Hv HE N. assert (P43 : / 2 ^ 43 = / 8796093022208) by (rewrite (pow_IZR 2 43); reflexivity). assert (P20 : 2 ^ 20 = 1048576) by (rewrite (pow_IZR 2 20); reflexivity). rewrite P43 in HE.
  assert (C : Rabs c <= 401). { replace c with ((c - c0) + c0) by ring. eapply Rle_trans; [apply Rabs_triang|]. lra. }
  destruct (isclose_finite a b c v Ha Hb ltac:(rewrite P20; lra) Hv) as [->|[H _]]; [|exact H]. apply Rleb_true.
  unfold clearly_near in N. rewrite p42, p49 in N. pose proof (tol_bounds v Hv) as [L _].
  assert (E : rnd (Rabs (rnd (c - v))) = Rabs (rnd (c - v))).
  { apply (rnd_exact (SFabs (b64_sub a b))). apply denotes_abs. apply denotes_sub_rnd; try assumption. assert (P52 : 2 ^ 52 = 4503599627370496) by (rewrite (pow_IZR 2 52); reflexivity). rewrite p53. pose proof (Rabs_triang c (- v)). rewrite Rabs_Ropp in H. unfold Rminus. lra. }
  rewrite E. pose proof (rnd_err (c - v)) as R. pose proof tiny as [T0 T1]. set (t := / 2 ^ 100) in *. rewrite hu in R.
  assert (A : Rabs (c - v) <= Rabs (c0 - v) + / 8796093022208). { replace (c - v) with ((c - c0) + (c0 - v)) by ring. eapply Rle_trans; [apply Rabs_triang|]. lra. }
  assert (B : Rabs (rnd (c - v)) <= Rabs (c - v) + (/ 9007199254740992 * Rabs (c - v) + t)). { replace (rnd (c - v)) with ((c - v) + (rnd (c - v) - (c - v))) at 1 by ring. eapply Rle_trans; [apply Rabs_triang|]. lra. }
  assert (T : 0 <= tolerance v) by (rewrite tolerance_value; pose proof (Rabs_pos v); lra). lra.
Qed.
Lemma close_far a b c c0 v : denotes a c -> denotes b v -> Rabs c0 <= 400 -> Rabs v <= 2 ^ 52 -> Rabs (c - c0) <= / 2 ^ 43 -> clearly_far c0 v -> isclose_b64 a b = false.
Proof.
  intros Ha Hb Hc Hv HE N. assert (P43 : / 2 ^ 43 = / 8796093022208) by (rewrite (pow_IZR 2 43); reflexivity). assert (P20 : 2 ^ 20 = 1048576) by (rewrite (pow_IZR 2 20); reflexivity). rewrite P43 in HE.
  assert (T : 0 < tolerance v) by (rewrite tolerance_value; pose proof (Rabs_pos v); lra).
  assert (C : Rabs c <= 401). { replace c with ((c - c0) + c0) by ring. eapply Rle_trans; [apply Rabs_triang|]. lra. }
  unfold clearly_far in N. rewrite p42, p49 in N.
  assert (A : Rabs (c0 - v) <= Rabs (c - v) + / 8796093022208). { replace (c0 - v) with ((c - v) - (c - c0)) by ring. eapply Rle_trans; [apply Rabs_triang|]. rewrite Rabs_Ropp. lra. }
  destruct (isclose_finite a b c v Ha Hb ltac:(rewrite P20; lra) Hv) as [->|[_ H]]; [|exfalso; subst c; replace (v - v) with 0 in A by ring; rewrite Rabs_R0 in A; lra]. apply Rleb_false.
  pose proof (tol_bounds v Hv) as [_ L].
  assert (E : rnd (Rabs (rnd (c - v))) = Rabs (rnd (c - v))).
  { apply (rnd_exact (SFabs (b64_sub a b))). apply denotes_abs. apply denotes_sub_rnd; try assumption. assert (P52 : 2 ^ 52 = 4503599627370496) by (rewrite (pow_IZR 2 52); reflexivity). rewrite p53. pose proof (Rabs_triang c (- v)). rewrite Rabs_Ropp in H. unfold Rminus. lra. }
  rewrite E. pose proof (rnd_err (c - v)) as R. pose proof tiny as [T0 T1]. set (t := / 2 ^ 100) in *. rewrite hu in R.
  assert (B : Rabs (c - v) <= Rabs (rnd (c - v)) + (/ 9007199254740992 * Rabs (c - v) + t)). { replace (c - v) with (rnd (c - v) - (rnd (c - v) - (c - v))) at 1 by ring. eapply Rle_trans; [apply Rabs_triang|]. rewrite Rabs_Ropp. lra. }
  lra.
Qed.

(** ** Indices *)
Lemma denote_nth l r : denote l r -> forall i, (i < length r)%nat -> denotes (nth i l S754_nan) (nth i r 0).
Proof. intros H. induction H as [|x v l r Hx H IH]; intros i Hi; [cbn in Hi; lia|]. destruct i; [exact Hx|]. apply IH. cbn in Hi. lia. Qed.
Lemma pick_b64_In (c : list b64) p i : In i (pick_b64 c p) <-> (i < length c)%nat /\ p (nth i c S754_nan) = true.
Proof. unfold pick_b64. rewrite filter_In, in_seq. intuition lia. Qed.
Lemma pick_b64_NoDup (c : list b64) p : NoDup (pick_b64 c p).
Proof. apply NoDup_filter, seq_NoDup. Qed.
Lemma single_Ok (c : list b64) x i : (i < length c)%nat -> isclose_b64 (nth i c S754_nan) x = true -> (forall j, (j < length c)%nat -> j <> i -> isclose_b64 (nth j c S754_nan) x = false) -> pick_single_b64 c x = Ok [i].
Proof.
  intros Hi H O. unfold pick_single_b64. set (l := pick_b64 c (fun c => isclose_b64 c x)).
  assert (L : l = [i]); [|now rewrite L]. assert (I : forall j, In j l <-> j = i).
  { intros j. unfold l. rewrite pick_b64_In. split; [|intros ->; tauto]. intros [A B]. destruct (Nat.eq_dec j i) as [|N]; [assumption|]. rewrite O in B by assumption. discriminate. }
  assert (ND : NoDup l) by apply pick_b64_NoDup. destruct l as [|a [|b l]].
  - exfalso. now apply (I i).
  - f_equal. apply I. now left.
  - exfalso. assert (a = i) by (apply I; now left). assert (b = i) by (apply I; right; now left). subst. inversion ND as [|? ? X]. apply X. now left.
Qed.
Lemma single_inv (c : list b64) x l : pick_single_b64 c x = Ok l -> exists i, l = [i] /\ (i < length c)%nat /\ isclose_b64 (nth i c S754_nan) x = true /\ forall j, (j < length c)%nat -> j <> i -> isclose_b64 (nth j c S754_nan) x = false.
Proof.
  unfold pick_single_b64. set (p := pick_b64 c (fun c => isclose_b64 c x)). destruct (Nat.eqb_spec (length p) 1) as [E|]; [|discriminate]. intros Q. injection Q as <-.
  destruct p as [|i [|? ?]] eqn:P; try discriminate. exists i. split; [reflexivity|]. assert (I : forall j, In j [i] <-> (j < length c)%nat /\ isclose_b64 (nth j c S754_nan) x = true) by (intros j; rewrite <- P; apply pick_b64_In).
  destruct (proj1 (I i) (or_introl eq_refl)) as [A B]. repeat split; try assumption. intros j Hj N. destruct (isclose_b64 (nth j c S754_nan) x) eqn:F; [|reflexivity]. exfalso. apply N. destruct (proj2 (I j) (conj Hj F)) as [|[]]. congruence.
Qed.
Lemma single_Err (c : list b64) x : (forall l, pick_single_b64 c x <> Ok l) -> pick_single_b64 c x = Err IndexError.
Proof. unfold pick_single_b64. intros H. destruct (Nat.eqb _ 1); [|reflexivity]. exfalso. now eapply H. Qed.
Lemma single_never_close (c : list b64) x : (forall j, (j < length c)%nat -> isclose_b64 (nth j c S754_nan) x = false) -> pick_single_b64 c x = Err IndexError.
Proof. intros H. apply single_Err. intros l E. apply single_inv in E. destruct E as (i & _ & A & B & _). rewrite H in B by assumption. discriminate. Qed.
Lemma single_two (c : list b64) x i j : (i < length c)%nat -> (j < length c)%nat -> i <> j -> isclose_b64 (nth i c S754_nan) x = true -> isclose_b64 (nth j c S754_nan) x = true -> pick_single_b64 c x = Err IndexError.
Proof.
  intros Hi Hj N A B. apply single_Err. intros l E. apply single_inv in E. destruct E as (k & _ & _ & _ & O). destruct (Nat.eq_dec i k) as [->|M].
  - rewrite O in B by auto. discriminate.
  - rewrite O in A by auto. discriminate.
Qed.
