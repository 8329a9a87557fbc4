(** Single precision. *)
From Coq Require Import Reals ZArith Lia Lra List.
From Flocq Require Import Core Relative.
From Verif Require Import Base Model_Float Model_Single Spec_Float Spec_Single Proofs_Base Proofs_Float Proofs_FloatRun Proofs_FloatGrid.
From Flocq Require Import BinarySingleNaN.
Import ListNotations.
Open Scope R_scope.

Lemma Hprec32 : FLX.Prec_gt_0 24. Proof. now unfold FLX.Prec_gt_0. Qed.
Lemma Hmax32 : Prec_lt_emax 24 128. Proof. now unfold Prec_lt_emax. Qed.
Global Existing Instance Hprec32.
Global Existing Instance Hmax32.
Notation bs := (binary_float 24 128).
Notation fe32 := (SpecFloat.fexp 24 128).
Notation rnd32 := (round radix2 fe32 (round_mode mode_NE)).

Lemma round_aux_equiv32 sx mx ex lx : SpecFloat.binary_round_aux 24 128 sx mx ex lx = BinarySingleNaN.binary_round_aux 24 128 mode_NE sx mx ex lx.
Proof.
  unfold SpecFloat.binary_round_aux, BinarySingleNaN.binary_round_aux. set (mrse' := shr_fexp _ _ _). case mrse'; intros mrs' e'; simpl. now rewrite (nearest_even_equiv sx).
Qed.
Lemma round_equiv32 s m e : SpecFloat.binary_round 24 128 s m e = binary_round 24 128 mode_NE s m e.
Proof. unfold SpecFloat.binary_round, binary_round, shl_align_fexp. set (mez := shl_align _ _ _); case mez as [mz ez]. apply round_aux_equiv32. Qed.
Lemma normalize_equiv32 m e s : SpecFloat.binary_normalize 24 128 m e s = B2SF (BinarySingleNaN.binary_normalize 24 128 Hprec32 Hmax32 mode_NE m e s).
Proof. case m as [|p|p]; [reflexivity| |]; simpl; rewrite B2SF_SF2B; apply round_equiv32. Qed.
Lemma add_equiv32 (x y : bs) : b32_add (B2SF x) (B2SF y) = B2SF (Bplus mode_NE x y).
Proof.
  unfold b32_add, b32_prec, b32_emax.
  case x as [sx|sx| |sx mx ex Bx]; case y as [sy|sy| |sy my ey By]; [now (trivial || simpl; case Bool.eqb)..|].
  apply normalize_equiv32.
Qed.
Lemma mul_equiv32 (x y : bs) : b32_mul (B2SF x) (B2SF y) = B2SF (Bmult mode_NE x y).
Proof.
  unfold b32_mul, b32_prec, b32_emax.
  case x as [sx|sx| |sx mx ex Bx]; case y as [sy|sy| |sy my ey By]; [now (trivial || simpl; case Bool.eqb)..|].
  simpl. rewrite B2SF_SF2B. apply round_aux_equiv32.
Qed.
Lemma div_equiv32 (x y : bs) : b32_div (B2SF x) (B2SF y) = B2SF (Bdiv mode_NE x y).
Proof.
  unfold b32_div, b32_prec, b32_emax.
  case x as [sx|sx| |sx mx ex Bx]; case y as [sy|sy| |sy my ey By]; [now (trivial || simpl; case Bool.eqb)..|].
  simpl. rewrite B2SF_SF2B. set (melz := SFdiv_core_binary _ _ _ _ _ _). case melz as [[mz ez] lz]. apply round_aux_equiv32.
Qed.
Lemma value_B2R32 (x : bs) : float_value (B2SF x) = B2R x.
Proof.
  destruct x as [s|s| |s m e H]; try reflexivity. unfold float_value, B2SF, B2R, F2R. cbn [Fnum Fexp]. change 2 with (IZR (radix_val radix2)). rewrite <- bpow_powerRZ. f_equal. now destruct s.
Qed.
Lemma denotes_B32 x r : denotes32 x r <-> exists b : bs, x = B2SF b /\ is_finite b = true /\ B2R b = r.
Proof.
  split.
  - intros (D & F & V). exists (SF2B x D). assert (E : B2SF (SF2B x D) = x) by apply B2SF_SF2B. split; [now symmetry|].
    split; [|rewrite <- value_B2R32; now rewrite E]. destruct x; cbn in *; tauto || reflexivity.
  - intros (b & -> & F & V). split; [apply valid_binary_B2SF|]. split; [destruct b; try discriminate; exact I|]. now rewrite value_B2R32.
Qed.

(** ** Rounding *)
Definition max32 : R := bpow radix2 127.
Lemma bpow_format32 e : (-149 <= e)%Z -> generic_format radix2 fe32 (bpow radix2 e).
Proof. intros H. apply (generic_format_FLT_bpow radix2 (3 - 128 - 24) 24). lia. Qed.
Lemma rnd32_max q : Rabs q <= max32 -> Rabs (rnd32 q) < bpow radix2 128.
Proof.
  intros H. apply Rle_lt_trans with (bpow radix2 127); [|now apply bpow_lt].
  apply abs_round_le_generic; [apply fexp_correct; exact Hprec32|apply valid_rnd_round_mode|apply bpow_format32; lia|assumption].
Qed.
Lemma rnd32_le a b : a <= b -> rnd32 a <= rnd32 b.
Proof. apply round_le; [apply fexp_correct; exact Hprec32|apply valid_rnd_round_mode]. Qed.
Lemma rnd32_bpow e : (-149 <= e)%Z -> rnd32 (bpow radix2 e) = bpow radix2 e.
Proof. intros H. apply round_generic; [apply valid_rnd_round_mode|now apply bpow_format32]. Qed.
Lemma rnd32_0 : rnd32 0 = 0.
Proof. apply round_0. apply valid_rnd_round_mode. Qed.
Lemma rnd32_1 : rnd32 1 = 1.
Proof. apply (rnd32_bpow 0). lia. Qed.
Lemma rnd32_exact x r : denotes32 x r -> rnd32 r = r.
Proof.
  intros H. apply denotes_B32 in H. destruct H as (b & _ & _ & <-). apply round_generic; [apply valid_rnd_round_mode|]. apply generic_format_B2R.
Qed.
Definition u32 : R := / 2 ^ 24.
Definition t32 : R := / 2 ^ 100.
Lemma rnd32_err q : Rabs (rnd32 q - q) <= u32 * Rabs q + / 2 ^ 150.
Proof.
  destruct (error_N_FLT radix2 (3 - 128 - 24) 24 Hprec32 (fun n => negb (Z.even n)) q) as (eps & eta & He & Ht & _ & E).
  change (round radix2 (FLT_exp (3 - 128 - 24) 24) (Znearest (fun n => negb (Z.even n))) q) with (rnd32 q) in E. rewrite E.
  replace (q * (1 + eps) + eta - q) with (q * eps + eta) by ring.
  eapply Rle_trans; [apply Rabs_triang|]. rewrite Rabs_mult. rewrite (Rmult_comm (Rabs q)). apply Rplus_le_compat.
  - apply Rmult_le_compat_r; [apply Rabs_pos|]. eapply Rle_trans; [exact He|]. right. unfold u32. cbn. lra.
  - eapply Rle_trans; [exact Ht|]. right. change (3 - 128 - 24)%Z with (-149)%Z.
    replace (bpow radix2 (-149)) with (/ 2 ^ 149) by (cbn; lra). change (2 ^ 150) with (2 * 2 ^ 149). rewrite Rinv_mult. reflexivity.
Qed.
(** relative error of numbers that do not underflow *)
Lemma rnd32_rel q : bpow radix2 (-126) <= Rabs q -> within u32 q (rnd32 q).
Proof.
  intros H. unfold within. pose proof (relative_error_N_FLT radix2 (3 - 128 - 24) 24 Hprec32 (fun n => negb (Z.even n)) q) as E.
  eapply Rle_trans; [apply E; exact H|]. right. f_equal. unfold u32. cbn. lra.
Qed.
(** numbers up to half of the smallest denormal are rounded to 0 *)
Lemma rnd32_tiny q : Rabs q <= bpow radix2 (-150) -> rnd32 q = 0.
Proof.
  assert (P : forall q, 0 <= q <= bpow radix2 (-150) -> rnd32 q = 0).
  { clear. intros q [A B]. destruct A as [A|<-]; [|apply rnd32_0]. destruct B as [B|B].
    - apply (round_N_small_pos radix2 fe32 (fun n => negb (Z.even n)) q (mag radix2 q)).
      + pose proof (bpow_mag_le radix2 q ltac:(lra)). pose proof (bpow_mag_gt radix2 q). rewrite Rabs_pos_eq in * by lra. lra.
      + assert (M : (mag radix2 q <= -150)%Z) by (apply mag_le_bpow; [lra|now rewrite Rabs_pos_eq by lra]).
        unfold SpecFloat.fexp, SpecFloat.emin. lia.
    - subst q. apply Rle_antisym.
      + (* ties to even *)
        unfold round, F2R, scaled_mantissa, cexp. rewrite mag_bpow. change (fe32 (-150 + 1))%Z with (-149)%Z. cbn [Fnum Fexp].
        rewrite <- bpow_plus. change (bpow radix2 (-150 + - (-149))) with (/ 2). cbn [round_mode].
        assert (Z : Znearest (fun x => negb (Z.even x)) (/ 2) = 0%Z).
        { unfold Znearest. assert (F : Zfloor (/ 2) = 0%Z) by (apply Zfloor_imp; cbn; lra). rewrite F. rewrite Rcompare_Eq by (cbn; lra). reflexivity. }
        rewrite Z. lra.
      + rewrite <- rnd32_0 at 1. apply rnd32_le. apply bpow_ge_0. }
  intros H. destruct (Rle_or_lt 0 q) as [A|A].
  - apply P. now rewrite Rabs_pos_eq in H.
  - rewrite Rabs_left in H by assumption. rewrite <- (Ropp_involutive q). cbn [round_mode]. rewrite round_NE_opp. change (- rnd32 (- q) = 0). rewrite P by lra. lra.
Qed.

(** ** Operations *)
Lemma denotes_mul32 x y a b : denotes32 x a -> denotes32 y b -> Rabs (a * b) <= max32 -> denotes32 (b32_mul x y) (rnd32 (a * b)).
Proof.
  intros Hx Hy H. apply denotes_B32 in Hx, Hy. destruct Hx as (bx & -> & Fx & <-), Hy as (by_ & -> & Fy & <-).
  rewrite mul_equiv32. apply denotes_B32. eexists. split; [reflexivity|].
  pose proof (Bmult_correct 24 128 Hprec32 Hmax32 mode_NE bx by_) as C. rewrite Rlt_bool_true in C by now apply rnd32_max.
  destruct C as (C1 & C2 & _). now rewrite C1, C2, Fx, Fy.
Qed.
Lemma denotes_add32 x y a b : denotes32 x a -> denotes32 y b -> Rabs (a + b) <= max32 -> denotes32 (b32_add x y) (rnd32 (a + b)).
Proof.
  intros Hx Hy H. apply denotes_B32 in Hx, Hy. destruct Hx as (bx & -> & Fx & <-), Hy as (by_ & -> & Fy & <-).
  rewrite add_equiv32. apply denotes_B32. eexists. split; [reflexivity|].
  pose proof (Bplus_correct 24 128 Hprec32 Hmax32 mode_NE bx by_ Fx Fy) as C. rewrite Rlt_bool_true in C by now apply rnd32_max. tauto.
Qed.
Lemma denotes_div32 x y a b : denotes32 x a -> denotes32 y b -> b <> 0 -> Rabs (a / b) <= max32 -> denotes32 (b32_div x y) (rnd32 (a / b)).
Proof.
  intros Hx Hy N H. apply denotes_B32 in Hx, Hy. destruct Hx as (bx & -> & Fx & <-), Hy as (by_ & -> & Fy & <-).
  rewrite div_equiv32. apply denotes_B32. eexists. split; [reflexivity|].
  pose proof (Bdiv_correct 24 128 Hprec32 Hmax32 mode_NE bx by_ N) as C. rewrite Rlt_bool_true in C by now apply rnd32_max.
  destruct C as (C1 & C2 & _). now rewrite C1, C2, Fx.
Qed.
Lemma denotes_one32 : denotes32 b32_one 1.
Proof.
  split; [reflexivity|]. split; [exact I|]. change b32_one with (S754_finite false 8388608 (-23)). unfold float_value.
  change 2 with (IZR (radix_val radix2)). rewrite <- bpow_powerRZ. cbn. lra.
Qed.
Lemma denotes_zero32 : denotes32 (S754_zero false) 0.
Proof. split; [reflexivity|]. split; [exact I|]. reflexivity. Qed.
(** the cast to single precision rounds *)
Lemma denotes_cast32 x r : denotes x r -> Rabs r <= max32 -> denotes32 (cast32 x) (rnd32 r).
Proof.
  intros (V & F & E) H. destruct x as [s|s| |s m e]; try contradiction.
  - cbn in E. subst r. rewrite rnd32_0. cbn. split; [reflexivity|]. split; [exact I|reflexivity].
  - unfold cast32, b32_prec, b32_emax. rewrite normalize_equiv32. apply denotes_B32. eexists. split; [reflexivity|].
    pose proof (binary_normalize_correct 24 128 Hprec32 Hmax32 mode_NE (if s then Z.neg m else Z.pos m) e s) as C. cbv zeta in C.
    assert (Q : F2R (Float radix2 (if s then Z.neg m else Z.pos m) e) = r).
    { rewrite <- E. unfold F2R, float_value. cbn [Fnum Fexp]. change 2 with (IZR (radix_val radix2)). rewrite <- bpow_powerRZ. f_equal. destruct s; [|reflexivity]. now rewrite <- opp_IZR. }
    rewrite Q in C. rewrite Rlt_bool_true in C by now apply rnd32_max. tauto.
Qed.

(** ** Relative errors *)
Lemma within_refl r : within 0 r r.
Proof. unfold within. replace (r - r) with 0 by ring. rewrite Rabs_R0. lra. Qed.
Lemma within_weaken e e' r v : e <= e' -> within e r v -> within e' r v.
Proof. unfold within. intros H W. pose proof (Rabs_pos r). nra. Qed.
Lemma within_size e r v : within e r v -> Rabs v <= (1 + e) * Rabs r.
Proof. unfold within. intros W. pose proof (Rabs_triang (v - r) r). replace (v - r + r) with v in H by ring. lra. Qed.
Lemma within_low e r v : within e r v -> (1 - e) * Rabs r <= Rabs v.
Proof. unfold within. intros W. pose proof (Rabs_triang (r - v) v). replace (r - v + v) with r in H by ring. rewrite Rabs_minus_sym in H. lra. Qed.
Lemma within_trans e1 e2 r v w : 0 <= e2 -> within e1 r v -> within e2 v w -> within (e1 + e2 + e1 * e2) r w.
Proof.
  intros P W1 W2. pose proof (within_size _ _ _ W1) as S. unfold within in *. replace (w - r) with ((w - v) + (v - r)) by ring.
  eapply Rle_trans; [apply Rabs_triang|]. nra.
Qed.
Lemma within_mul e1 e2 a b a' b' : 0 <= e1 -> 0 <= e2 -> within e1 a a' -> within e2 b b' -> within (e1 + e2 + e1 * e2) (a * b) (a' * b').
Proof.
  intros P1 P2 W1 W2. pose proof (within_size _ _ _ W1) as S. unfold within in *. replace (a' * b' - a * b) with (a' * (b' - b) + (a' - a) * b) by ring.
  eapply Rle_trans; [apply Rabs_triang|]. rewrite !Rabs_mult. pose proof (Rabs_pos a). pose proof (Rabs_pos b). pose proof (Rabs_pos a'). pose proof (Rabs_pos (b' - b)).
  assert (Rabs a' * Rabs (b' - b) <= ((1 + e1) * Rabs a) * (e2 * Rabs b)) by (apply Rmult_le_compat; lra).
  assert (Rabs (a' - a) * Rabs b <= (e1 * Rabs a) * Rabs b) by (apply Rmult_le_compat_r; lra). nra.
Qed.
Lemma within_inv e r v : 0 <= e <= / 2 -> r <> 0 -> within e r v -> within (e + 2 * e * e) (/ r) (/ v).
Proof.
  intros E N W. pose proof (within_low _ _ _ W) as L. assert (Pr : 0 < Rabs r) by now apply Rabs_pos_lt. assert (Pv : 0 < Rabs v) by nra.
  assert (Nv : v <> 0) by (intros ->; rewrite Rabs_R0 in Pv; lra). unfold within in *.
  replace (/ v - / r) with ((r - v) * (/ v * / r)) by (field; tauto). rewrite !Rabs_mult, !Rabs_inv, Rabs_minus_sym.
  pose proof (Rinv_0_lt_compat _ Pr) as I. pose proof (Rinv_0_lt_compat _ Pv) as Iv.
  rewrite <- Rmult_assoc. apply Rmult_le_compat_r; [lra|]. apply Rmult_le_reg_r with (Rabs v); [assumption|]. rewrite Rmult_assoc, Rinv_l, Rmult_1_r by lra.
  eapply Rle_trans; [exact W|]. assert (0 <= (e + 2 * e * e) * (Rabs v - (1 - e) * Rabs r)) by (apply Rmult_le_pos; nra).
  assert (e * Rabs r <= (e + 2 * e * e) * ((1 - e) * Rabs r)); [|lra].
  replace ((e + 2 * e * e) * ((1 - e) * Rabs r)) with (e * ((1 + 2 * e) * (1 - e)) * Rabs r) by ring.
  apply Rmult_le_compat_r; [lra|]. assert (1 <= (1 + 2 * e) * (1 - e)) by nra. nra.
Qed.
Lemma within_pos e r v : 0 <= e < 1 -> 0 < r -> within e r v -> 0 < v.
Proof. intros E P W. unfold within in W. rewrite (Rabs_pos_eq r) in W by lra. apply Rabs_le_inv in W. nra. Qed.
Lemma u32_value : u32 = / 16777216.
Proof. unfold u32. rewrite (pow_IZR 2 24). reflexivity. Qed.

(** ** Eigenvalues *)
Definition fl_eig (r : R) (n : nat) : R := rnd32 (rnd (rnd (INR n * (INR n + 1) / r) / r)).
Lemma small_bpow q : / 2 ^ 120 <= q -> bpow radix2 (-126) <= Rabs q.
Proof.
  intros H. assert (0 < / 2 ^ 120) by (apply Rinv_0_lt_compat, pow_lt; lra). rewrite Rabs_pos_eq by lra.
  apply Rle_trans with (bpow radix2 (-120)); [apply bpow_le; lia|]. replace (bpow radix2 (-120)) with (/ 2 ^ 120); [assumption|]. cbn. lra.
Qed.
Lemma max32_big q : 0 <= q <= 2 ^ 120 -> Rabs q <= max32.
Proof.
  intros [A B]. rewrite Rabs_pos_eq by assumption. apply Rle_trans with (bpow radix2 120); [|apply bpow_le; lia].
  replace (bpow radix2 120) with (2 ^ 120) by (cbn; lra). assumption.
Qed.
Lemma nat_small20 n : (Z.of_nat n <= 2 ^ 20)%Z -> INR n <= 1048576.
Proof. intros H. rewrite INR_IZR_INZ. apply IZR_le. exact H. Qed.
Lemma inv_mono a b : 0 < a -> a <= b -> 0 < / b <= / a.
Proof. intros A B. split; [apply Rinv_0_lt_compat; lra|apply Rinv_le_contravar; lra]. Qed.
Lemma eigenvalue_range r n : 1 <= r <= 2 ^ 30 -> (1 <= n)%nat -> (Z.of_nat n <= 2 ^ 20)%Z -> / 2 ^ 59 <= eigenvalue r n <= 2 ^ 42.
Proof.
  intros Hr H1 H2. apply nat_small20 in H2. assert (N1 : 1 <= INR n) by (apply (le_INR 1); lia). unfold eigenvalue, Rdiv.
  assert (E60 : 2 ^ 59 = 576460752303423488) by (rewrite (pow_IZR 2 59); reflexivity). assert (E30 : 2 ^ 30 = 1073741824) by (rewrite (pow_IZR 2 30); reflexivity).
  assert (E42 : 2 ^ 42 = 4398046511104) by (rewrite (pow_IZR 2 42); reflexivity). rewrite E60, E30, E42 in *.
  assert (RR : 1 <= r * r <= 1152921504606846976) by nra.
  pose proof (inv_mono 1 (r * r) ltac:(lra) ltac:(lra)) as [I1 I2]. pose proof (inv_mono (r * r) 1152921504606846976 ltac:(lra) ltac:(lra)) as [I3 I4].
  assert (Q : 2 <= INR n * (INR n + 1) <= 1048576 * 1048577) by nra. set (q := INR n * (INR n + 1)) in *. set (i := / (r * r)) in *. clearbody q i. rewrite Rinv_1 in I2. split; nra.
Qed.
Lemma rel53 q : / 2 ^ 100 <= q -> within half_ulp q (rnd q).
Proof. intros H. unfold within. assert (0 < / 2 ^ 100) by (apply Rinv_0_lt_compat, pow_lt; lra). rewrite (Rabs_pos_eq q) by lra. now apply rnd_error. Qed.
Lemma eigenvalue32_denotes x r n : denotes x r -> 1 <= r <= 2 ^ 30 -> (Z.of_nat n <= 2 ^ 20)%Z ->
  denotes32 (eigenvalue32 x n) (fl_eig r n) /\ within (2 * u32) (eigenvalue r n) (fl_eig r n).
Proof.
  intros Hx Hr Hn. pose proof (nat_small20 n Hn) as NB. pose proof (pos_INR n) as N0.
  assert (E30 : 2 ^ 30 = 1073741824) by (rewrite (pow_IZR 2 30); reflexivity).
  pose proof (inv_mono 1 r ltac:(lra) ltac:(lra)) as [I1 I2]. rewrite Rinv_1 in I2. pose proof (inv_mono r (2 ^ 30) ltac:(lra) ltac:(lra)) as [I3 I4]. rewrite E30 in I3, I4.
  set (q := INR n * (INR n + 1)). assert (Q0 : 0 <= q <= 1048576 * 1048577) by (unfold q; nra).
  assert (Dq : denotes (b64_mul (b64_of_Z (Z.of_nat n)) (b64_add (b64_of_Z 1) (b64_of_Z (Z.of_nat n)))) q).
  { assert (Dn : denotes (b64_of_Z (Z.of_nat n)) (INR n)) by (rewrite INR_IZR_INZ; apply denotes_of_Z; lia).
    assert (D1 : denotes (b64_add (b64_of_Z 1) (b64_of_Z (Z.of_nat n))) (INR n + 1)).
    { replace (INR n + 1) with (rnd (1 + INR n)).
      - apply denotes_add_rnd; [apply (denotes_of_Z 1); lia|assumption|]. rewrite Rabs_pos_eq by lra. rewrite p53. lra.
      - rewrite Rplus_comm, INR_IZR_INZ, <- (plus_IZR _ 1). apply round_generic; [apply valid_rnd_round_mode|]. apply int_format. lia. }
    replace q with (rnd (INR n * (INR n + 1))).
    - apply denotes_mul_rnd; try assumption. fold q. rewrite Rabs_pos_eq by lra. rewrite p53. lra.
    - unfold q. rewrite INR_IZR_INZ, <- (plus_IZR _ 1), <- mult_IZR. apply round_generic; [apply valid_rnd_round_mode|]. apply int_format. nia. }
  destruct (Nat.eq_dec n 0) as [->|Nz].
  - assert (q = 0) as Eq by (unfold q; cbn; ring).
    assert (Zr : fl_eig r 0 = 0) by (unfold fl_eig; fold q; rewrite Eq; unfold Rdiv; now rewrite Rmult_0_l, rnd_0, Rmult_0_l, rnd_0, rnd32_0).
    split.
    + unfold eigenvalue32. cbv zeta. unfold fl_eig. fold q. apply denotes_cast32.
      * apply denotes_div_rnd; [apply denotes_div_rnd; try assumption; try lra| assumption|lra|].
        -- rewrite Eq. unfold Rdiv. rewrite Rmult_0_l, Rabs_R0, p53. lra.
        -- rewrite Eq. unfold Rdiv. rewrite Rmult_0_l, rnd_0, Rmult_0_l, Rabs_R0, p53. lra.
      * rewrite Eq. unfold Rdiv. rewrite Rmult_0_l, rnd_0, Rmult_0_l, rnd_0. apply max32_big. split; [lra|]. apply pow_le. lra.
    + rewrite Zr. unfold eigenvalue, Rdiv. cbn [INR]. rewrite !Rmult_0_l. apply within_weaken with 0; [|apply within_refl]. rewrite u32_value. lra.
  - pose proof (eigenvalue_range r n Hr ltac:(lia) Hn) as ER. change (eigenvalue r n) with (q / (r * r)) in *.
    assert (N1 : 1 <= INR n) by (apply (le_INR 1); lia). assert (Q1 : 2 <= q) by (unfold q; nra).
    pose proof tiny as [T0 T1].
    assert (Eq2 : q / (r * r) = q / r / r) by (field; lra).
    assert (W1 : within half_ulp (q / r) (rnd (q / r))) by (apply rel53; unfold Rdiv; nra).
    assert (W1' : within half_ulp (q / (r * r)) (rnd (q / r) / r)).
    { rewrite Eq2. unfold within in *. replace (rnd (q / r) / r - q / r / r) with ((rnd (q / r) - q / r) * / r) by (field; lra). unfold Rdiv at 3. rewrite !Rabs_mult, (Rabs_pos_eq (/ r)) by lra. nra. }
    set (d1 := rnd (q / r)) in *.
    assert (P1 : 0 < d1 / r). { apply within_pos with half_ulp (q / (r * r)); [rewrite hu; lra| |assumption]. pose proof (Rinv_0_lt_compat (2 ^ 59) ltac:(apply pow_lt; lra)). lra. }
    pose proof (within_low _ _ _ W1') as L1. pose proof (within_size _ _ _ W1') as S1. rewrite (Rabs_pos_eq (d1 / r)) in L1, S1 by lra.
    assert (E59 : 2 ^ 59 = 576460752303423488) by (rewrite (pow_IZR 2 59); reflexivity). assert (E42 : 2 ^ 42 = 4398046511104) by (rewrite (pow_IZR 2 42); reflexivity).
    rewrite E59, E42 in ER. rewrite (Rabs_pos_eq (q / (r * r))) in L1, S1 by lra. rewrite hu in L1, S1.
    assert (W2 : within half_ulp (d1 / r) (rnd (d1 / r))) by (apply rel53; lra).
    pose proof (within_trans half_ulp half_ulp _ _ _ ltac:(rewrite hu; lra) W1' W2) as W12. set (d2 := rnd (d1 / r)) in *.
    assert (P2 : 0 < d2) by (apply within_pos with half_ulp (d1 / r); [rewrite hu; lra|lra|assumption]).
    pose proof (within_low _ _ _ W2) as L2. pose proof (within_size _ _ _ W2) as S2. rewrite (Rabs_pos_eq d2) in L2, S2 by lra. rewrite (Rabs_pos_eq (d1 / r)) in L2, S2 by lra. rewrite hu in L2, S2.
    assert (E120 : 2 ^ 120 = 1329227995784915872903807060280344576) by (rewrite (pow_IZR 2 120); reflexivity).
    assert (W3 : within u32 d2 (rnd32 d2)) by (apply rnd32_rel, small_bpow; rewrite E120; lra).
    split.
    + unfold eigenvalue32. cbv zeta. unfold fl_eig. fold q. fold d1. fold d2. apply denotes_cast32.
      * apply denotes_div_rnd; [apply denotes_div_rnd; try assumption; try lra| assumption|lra|].
        -- rewrite Rabs_pos_eq by (unfold Rdiv; nra). rewrite p53. unfold Rdiv. nra.
        -- fold d1. rewrite Rabs_pos_eq by lra. rewrite p53. lra.
      * apply max32_big. rewrite E120. lra.
    + unfold fl_eig. fold q. fold d1. fold d2. eapply within_weaken; [|eapply within_trans; [|exact W12|exact W3]]; rewrite ?hu, u32_value; lra.
Qed.
Lemma fl_eig_pos r n : 1 <= r <= 2 ^ 30 -> (1 <= n)%nat -> (Z.of_nat n <= 2 ^ 20)%Z -> within (2 * u32) (eigenvalue r n) (fl_eig r n) -> 0 < fl_eig r n.
Proof.
  intros Hr H1 H2 W. apply within_pos with (2 * u32) (eigenvalue r n); [rewrite u32_value; lra| |assumption].
  pose proof (eigenvalue_range r n Hr H1 H2). pose proof (Rinv_0_lt_compat (2 ^ 59) ltac:(apply pow_lt; lra)). lra.
Qed.
Lemma eigenvalue_incr r m n : 1 <= r <= 2 ^ 30 -> (m < n)%nat -> (Z.of_nat n <= 2 ^ 20)%Z -> eigenvalue r m * (1 + / 1048576) <= eigenvalue r n.
Proof.
  intros Hr L Hn. unfold eigenvalue, Rdiv. assert (0 < / (r * r)) by (apply Rinv_0_lt_compat; nra).
  assert (INR m + 1 <= INR n) by (rewrite <- S_INR; apply le_INR; lia). pose proof (pos_INR m). apply nat_small20 in Hn. set (i := / (r * r)) in *. clearbody i.
  assert (INR m * (INR m + 1) * (1 + / 1048576) <= INR n * (INR n + 1)) by nra. nra.
Qed.
Lemma rnd32_within q : q = 0 \/ / 2 ^ 120 <= Rabs q -> within u32 q (rnd32 q).
Proof.
  intros [->|H].
  - rewrite rnd32_0. apply within_weaken with 0; [rewrite u32_value; lra|apply within_refl].
  - apply rnd32_rel. apply small_bpow in H. now rewrite Rabs_Rabsolu in H.
Qed.
Lemma abs_max32 q : Rabs q <= 2 ^ 120 -> Rabs q <= max32.
Proof. intros H. rewrite <- Rabs_Rabsolu. apply max32_big. split; [apply Rabs_pos|assumption]. Qed.
Lemma denotes_opp32 x r : denotes32 x r -> denotes32 (SFopp x) (- r).
Proof.
  intros (V & F & E). split; [destruct x; exact V|]. split; [destruct x; try contradiction; exact I|].
  destruct x as [s|s| |s m e]; try contradiction; cbn in *; [lra|]. rewrite <- E. destruct s; cbn; ring.
Qed.

(** ** The Laplacian and its inverse *)
Lemma poisson_laplace32 l lv x a : denotes32 l lv -> / 2 ^ 60 <= lv <= 2 ^ 43 -> denotes32 x a -> a = 0 \/ / 2 ^ 60 <= Rabs a <= 2 ^ 60 ->
  exists v, denotes32 (poisson32 l (laplace32 l x)) v /\ within (4 * u32) a v.
Proof.
  intros Hl HL Hx HA. assert (P60 : 2 ^ 60 = 1152921504606846976) by (rewrite (pow_IZR 2 60); reflexivity). assert (P43 : 2 ^ 43 = 8796093022208) by (rewrite (pow_IZR 2 43); reflexivity).
  assert (P120 : 2 ^ 120 = 1329227995784915872903807060280344576) by (rewrite (pow_IZR 2 120); reflexivity).
  rewrite P60, P43 in *. assert (U : u32 = / 16777216) by apply u32_value.
  pose proof (inv_mono lv 8796093022208 ltac:(lra) ltac:(lra)) as [_ I1]. pose proof (inv_mono (/ 1152921504606846976) lv ltac:(lra) ltac:(lra)) as [_ I2]. rewrite Rinv_inv in I2.
  assert (A0 : Rabs a <= 1152921504606846976) by (destruct HA as [->|HA]; [rewrite Rabs_R0|]; lra). pose proof (Rabs_pos a) as AP.
  unfold poisson32, laplace32.
  assert (D1 : denotes32 (b32_mul (SFopp x) l) (rnd32 (- a * lv))).
  { apply denotes_mul32; [now apply denotes_opp32|assumption|]. apply abs_max32. rewrite Rabs_mult, Rabs_Ropp, (Rabs_pos_eq lv), P120 by lra. nra. }
  assert (W1 : within u32 (- a * lv) (rnd32 (- a * lv))).
  { apply rnd32_within. destruct HA as [->|HA]; [left; ring|right]. rewrite Rabs_mult, Rabs_Ropp, (Rabs_pos_eq lv), P120 by lra.
    apply Rle_trans with (/ 1152921504606846976 * / 1152921504606846976); [lra|apply Rmult_le_compat; lra]. }
  assert (D2 : denotes32 (b32_div b32_one l) (rnd32 (1 / lv))).
  { apply denotes_div32; [apply denotes_one32|assumption|lra|]. apply abs_max32. unfold Rdiv. rewrite Rmult_1_l, Rabs_pos_eq, P120 by lra. lra. }
  assert (W2 : within u32 (1 / lv) (rnd32 (1 / lv))).
  { apply rnd32_within. right. unfold Rdiv. rewrite Rmult_1_l, Rabs_pos_eq, P120 by lra. lra. }
  set (y := rnd32 (- a * lv)) in *. set (s := rnd32 (1 / lv)) in *.
  assert (W3 : within (u32 + u32 + u32 * u32) a (- y * s)).
  { pose proof (within_mul u32 u32 _ _ _ _ ltac:(lra) ltac:(lra) W1 W2) as W. replace (- a * lv * (1 / lv)) with (- a) in W by (field; lra).
    unfold within in *. rewrite Rabs_Ropp in W. replace (- y * s - a) with (- (y * s - - a)) by ring. now rewrite Rabs_Ropp. }
  exists (rnd32 (- y * s)). split.
  - apply denotes_mul32; [now apply denotes_opp32|assumption|]. apply abs_max32. pose proof (within_size _ _ _ W3). rewrite U in *. rewrite P120. lra.
  - eapply within_weaken; [|eapply within_trans; [|exact W3|apply rnd32_within]]; [rewrite U; lra|lra|].
    destruct HA as [->|HA].
    + left. unfold within in W3. rewrite Rabs_R0, Rmult_0_r, Rminus_0_r in W3. pose proof (Rabs_pos (- y * s)). destruct (Req_dec (- y * s) 0) as [|N]; [assumption|]. apply Rabs_pos_lt in N. lra.
    + right. pose proof (within_low _ _ _ W3). rewrite U in *. rewrite P120. lra.
Qed.

(** ** Powers that underflow *)
Lemma denotes_small32 x y a b c e : denotes32 x a -> denotes32 y b -> 0 <= a <= bpow radix2 c -> 0 <= b <= bpow radix2 e -> (-149 <= c + e <= 120)%Z ->
  exists v, denotes32 (b32_mul x y) v /\ 0 <= v <= bpow radix2 (c + e).
Proof.
  intros Hx Hy A B E. assert (AB : 0 <= a * b <= bpow radix2 (c + e)) by (rewrite bpow_plus; split; [apply Rmult_le_pos; lra|apply Rmult_le_compat; lra]).
  exists (rnd32 (a * b)). split.
  - apply denotes_mul32; try assumption. rewrite Rabs_pos_eq by lra. eapply Rle_trans; [apply AB|]. apply bpow_le. lia.
  - split; [rewrite <- rnd32_0 at 1; apply rnd32_le; lra|]. rewrite <- (rnd32_bpow (c + e)) by lia. apply rnd32_le. lra.
Qed.
Lemma denotes_tiny32 x y a b c e : denotes32 x a -> denotes32 y b -> 0 <= a <= bpow radix2 c -> 0 <= b <= bpow radix2 e -> (c + e <= -150)%Z ->
  denotes32 (b32_mul x y) 0.
Proof.
  intros Hx Hy A B E. assert (AB : 0 <= a * b <= bpow radix2 (-150)).
  { split; [apply Rmult_le_pos; lra|]. apply Rle_trans with (bpow radix2 (c + e)); [rewrite bpow_plus; apply Rmult_le_compat; lra|apply bpow_le; lia]. }
  rewrite <- (rnd32_tiny (a * b)) by (rewrite Rabs_pos_eq; lra). apply denotes_mul32; try assumption. rewrite Rabs_pos_eq by lra. eapply Rle_trans; [apply AB|]. apply bpow_le. lia.
Qed.
Lemma loop_zero k : forall aa p a, denotes32 aa a -> 0 <= a <= 1 -> denotes32 p 0 -> denotes32 (pow_loop k aa p) 0.
Proof.
  assert (Z0 : 0 <= 0 <= bpow radix2 (-200)) by (split; [lra|apply bpow_ge_0]).
  assert (M : forall x y a, denotes32 x a -> 0 <= a <= 1 -> denotes32 y 0 -> denotes32 (b32_mul x y) 0).
  { intros x y a Hx A Hy. apply (denotes_tiny32 x y a 0 0 (-200)); try assumption. lia. }
  induction k as [k IH|k IH|]; intros aa p a Ha A Hp; cbn [pow_loop].
  - apply (IH _ _ 0); [now apply (M aa p a)|lra|]. apply (M p p 0); [assumption|lra|assumption].
  - apply (IH _ _ a); [assumption|assumption|]. apply (M p p 0); [assumption|lra|assumption].
  - now apply (M aa p a).
Qed.
Lemma loop_one aa p a c : denotes32 aa a -> 0 <= a <= 1 -> forall v, denotes32 p v -> 0 <= v <= bpow radix2 c -> (-149 <= c <= 0)%Z ->
  exists w, denotes32 (b32_mul aa p) w /\ 0 <= w <= 1 /\ 0 <= w <= bpow radix2 c.
Proof.
  intros Ha A v Hp V C. destruct (denotes_small32 aa p a v 0 c Ha Hp A V ltac:(lia)) as (w & Dw & Bw). rewrite Z.add_0_l in Bw.
  exists w. split; [assumption|]. assert (bpow radix2 c <= bpow radix2 0) by (apply bpow_le; lia). cbn in H. repeat split; try apply Bw. lra.
Qed.
(** order 4 and more: powers of numbers up to 2^-37.5 *)
Lemma power_tiny4 l v k : denotes32 l v -> 0 <= v -> v * v <= bpow radix2 (-75) -> (4 <= k)%nat -> denotes32 (power32 l k) 0.
Proof.
  intros Hl V0 V Hk.
  assert (V1 : 0 <= v <= bpow radix2 (-37)).
  { split; [assumption|]. destruct (Rle_or_lt v (bpow radix2 (-37))) as [G|G]; [assumption|]. exfalso.
    assert (bpow radix2 (-37) * bpow radix2 (-37) <= v * v) by (apply Rmult_le_compat; (apply bpow_ge_0 || lra)). rewrite <- bpow_plus in H.
    assert (bpow radix2 (-75) < bpow radix2 (-37 + -37)) by (apply bpow_lt; lia). lra. }
  assert (D2 : exists w, denotes32 (b32_mul l l) w /\ 0 <= w <= bpow radix2 (-75)).
  { exists (rnd32 (v * v)). assert (0 <= v * v) by nra. split.
    - apply denotes_mul32; try assumption. rewrite Rabs_pos_eq by lra. eapply Rle_trans; [apply V|]. apply bpow_le. lia.
    - split; [rewrite <- rnd32_0 at 1; now apply rnd32_le|]. rewrite <- (rnd32_bpow (-75)) by lia. now apply rnd32_le. }
  destruct D2 as (w & D2 & W). pose proof (denotes_tiny32 _ _ _ _ _ _ D2 D2 W W ltac:(lia)) as D4.
  pose proof denotes_one32 as O. assert (O1 : 0 <= 1 <= 1) by lra.
  destruct (loop_one b32_one l 1 (-37) O O1 v Hl V1 ltac:(lia)) as (x1 & E1 & F1 & _).
  assert (P : power32 l k = pow_loop (Pos.of_nat k) b32_one l) by (destruct k as [|[|[|[|k]]]]; try lia; reflexivity). rewrite P.
  assert (K : (4 <= Pos.of_nat k)%positive) by lia. destruct (Pos.of_nat k) as [[k'|k'|]|[k'|k'|]|]; try lia; cbn [pow_loop].
  - destruct (loop_one _ _ x1 (-75) E1 F1 w D2 W ltac:(lia)) as (x2 & E2 & F2 & _). now apply (loop_zero k' _ _ x2).
  - now apply (loop_zero k' _ _ x1).
  - destruct (loop_one _ _ 1 (-75) O O1 w D2 W ltac:(lia)) as (x2 & E2 & F2 & _). now apply (loop_zero k' _ _ x2).
  - now apply (loop_zero k' _ _ 1).
Qed.
(** order 5 and more: powers of numbers up to 2^-31 *)
Lemma power_tiny5 l v k : denotes32 l v -> 0 <= v <= bpow radix2 (-31) -> (5 <= k)%nat -> denotes32 (power32 l k) 0.
Proof.
  intros Hl V Hk. pose proof denotes_one32 as O. assert (O1 : 0 <= 1 <= 1) by lra.
  destruct (denotes_small32 _ _ _ _ _ _ Hl Hl V V ltac:(lia)) as (w2 & D2 & W2). destruct (denotes_small32 _ _ _ _ _ _ D2 D2 W2 W2 ltac:(lia)) as (w4 & D4 & W4).
  pose proof (denotes_tiny32 _ _ _ _ _ _ D4 D4 W4 W4 ltac:(lia)) as D8.
  destruct (loop_one b32_one l 1 (-31) O O1 v Hl V ltac:(lia)) as (x1 & E1 & F1 & G1).
  destruct (loop_one _ _ x1 _ E1 F1 w2 D2 W2 ltac:(lia)) as (x3 & E3 & F3 & G3).
  destruct (loop_one _ _ 1 _ O O1 w2 D2 W2 ltac:(lia)) as (x2 & E2 & F2 & G2).
  assert (P : power32 l k = pow_loop (Pos.of_nat k) b32_one l) by (destruct k as [|[|[|[|k]]]]; try lia; reflexivity). rewrite P.
  assert (K : (5 <= Pos.of_nat k)%positive) by lia.
  assert (L : forall j aa a, denotes32 aa a -> 0 <= a <= 1 -> (j <> 1)%positive -> denotes32 (pow_loop j aa (b32_mul (b32_mul l l) (b32_mul l l))) 0).
  { intros j aa a Ha A J. destruct j as [j|j|]; [| |lia]; cbn [pow_loop].
    - destruct (loop_one aa _ a _ Ha A w4 D4 W4 ltac:(lia)) as (x & E & F & _). now apply (loop_zero j _ _ x).
    - now apply (loop_zero j _ _ a). }
  destruct (Pos.of_nat k) as [[k'|k'|]|[k'|k'|]|]; try lia; cbn [pow_loop]; destruct (Pos.eq_dec k' 1) as [->|N]; try lia; cbn [pow_loop].
  - apply (denotes_tiny32 _ _ _ _ _ _ E3 D4 G3 W4). lia.
  - now apply (L k' _ x3).
  - apply (denotes_tiny32 _ _ _ _ _ _ E1 D4 G1 W4). lia.
  - now apply (L k' _ x1).
  - apply (denotes_tiny32 _ _ _ _ _ _ E2 D4 G2 W4). lia.
  - now apply (L k' _ x2).
  - now apply (L k' _ 1).
Qed.

(** ** Diffusion *)
Lemma rnd_bound127 q : Rabs q <= 2 ^ 127 -> Rabs (rnd q) <= max32.
Proof.
  intros H. apply abs_round_le_generic; [apply fexp_correct; exact Hprec|apply valid_rnd_round_mode|apply (generic_format_FLT_bpow radix2 (3 - 1024 - 53) 53); lia|].
  unfold max32. replace (bpow radix2 127) with (2 ^ 127) by (cbn; lra). assumption.
Qed.
Lemma denotes_factor x y a b : denotes x a -> denotes y b -> Rabs (a * b) <= 2 ^ 127 -> denotes32 (cast32 (b64_mul x y)) (rnd32 (rnd (a * b))).
Proof.
  intros Hx Hy H. apply denotes_cast32; [|now apply rnd_bound127].
  apply denotes_B in Hx, Hy. destruct Hx as (bx & -> & Fx & <-), Hy as (by_ & -> & Fy & <-).
  rewrite mul_equiv. apply denotes_B. eexists. split; [reflexivity|].
  pose proof (Bmult_correct 53 1024 Hprec Hmax mode_NE bx by_) as C. rewrite Rlt_bool_true in C.
  - destruct C as (C1 & C2 & _). now rewrite C1, C2, Fx, Fy.
  - apply Rle_lt_trans with max32; [now apply rnd_bound127|]. now apply bpow_lt.
Qed.
Lemma denotes_times_one x y a : denotes32 x a -> denotes32 y 1 -> denotes32 (b32_mul x y) a.
Proof.
  intros Hx Hy. pose proof (rnd32_exact _ _ Hx) as R. apply denotes_B32 in Hx, Hy. destruct Hx as (bx & -> & Fx & <-), Hy as (by_ & -> & Fy & Vy).
  rewrite mul_equiv32. apply denotes_B32. eexists. split; [reflexivity|].
  pose proof (Bmult_correct 24 128 Hprec32 Hmax32 mode_NE bx by_) as C. rewrite Vy, Rmult_1_r, R in C. rewrite Rlt_bool_true in C by apply abs_B2R_lt_emax.
  destruct C as (C1 & C2 & _). now rewrite C1, C2, Fx, Fy.
Qed.
(** no damping where the power of the eigenvalue underflows *)
Lemma diffuse_undamped coeff dt c d order l x a : denotes coeff c -> denotes dt d -> Rabs (d * c) <= 2 ^ 127 -> denotes32 (power32 l order) 0 -> denotes32 x a ->
  denotes32 (diffuse32 coeff dt order l x) a.
Proof.
  intros Hc Hd K P Hx. unfold diffuse32, denominator32. pose proof (denotes_factor _ _ _ _ Hd Hc K) as F.
  assert (M : denotes32 (b32_mul (cast32 (b64_mul dt coeff)) (power32 l order)) 0).
  { pose proof (denotes_mul32 _ _ _ _ F P) as M. rewrite Rmult_0_r, rnd32_0 in M. apply M. rewrite Rabs_R0. apply bpow_ge_0. }
  assert (O : Rabs 1 <= max32) by (rewrite Rabs_R1; change 1 with (bpow radix2 0); apply bpow_le; lia).
  assert (A : denotes32 (b32_add b32_one (b32_mul (cast32 (b64_mul dt coeff)) (power32 l order))) 1).
  { pose proof (denotes_add32 _ _ _ _ denotes_one32 M) as A. rewrite Rplus_0_r, rnd32_1 in A. now apply A. }
  apply denotes_times_one; [assumption|]. pose proof (denotes_div32 _ _ _ _ denotes_one32 A ltac:(lra)) as D. unfold Rdiv in D. rewrite Rinv_1, Rmult_1_r, rnd32_1 in D. now apply D.
Qed.
(** orders 1 and 2 *)
Lemma factor_within k : k = 0 \/ / 2 ^ 60 <= k -> within (2 * u32) k (rnd32 (rnd k)).
Proof.
  intros [->|H].
  - rewrite rnd_0, rnd32_0. apply within_weaken with 0; [rewrite u32_value; lra|apply within_refl].
  - assert (P60 : 2 ^ 60 = 1152921504606846976) by (rewrite (pow_IZR 2 60); reflexivity). assert (P120 : 2 ^ 120 = 1329227995784915872903807060280344576) by (rewrite (pow_IZR 2 120); reflexivity).
    rewrite P60 in H. pose proof tiny as [T0 T1]. assert (W1 : within half_ulp k (rnd k)) by (apply rel53; lra).
    pose proof (within_low _ _ _ W1) as L. rewrite hu, (Rabs_pos_eq k) in L by lra.
    assert (W2 : within u32 (rnd k) (rnd32 (rnd k))) by (apply rnd32_within; right; rewrite P120; lra).
    eapply within_weaken; [|eapply within_trans; [|exact W1|exact W2]]; rewrite ?hu, u32_value; lra.
Qed.
Lemma pow_le_1 k x : 0 <= x <= 1 -> x ^ k <= 1.
Proof. intros H. apply Rle_trans with (1 ^ k); [now apply pow_incr|rewrite pow1; lra]. Qed.
Lemma Bernoulli_low k x : 0 <= x <= 1 -> 1 - INR k * x <= (1 - x) ^ k.
Proof.
  intros H. induction k as [|k IH]; [cbn; lra|]. rewrite S_INR. cbn [pow]. pose proof (pos_INR k).
  assert (P : 0 <= (1 - x) ^ k) by (apply pow_le; lra). assert (Q : (1 - x) ^ k <= 1) by (apply pow_le_1; lra).
  assert (x * (1 - x) ^ k <= x * 1) by (apply Rmult_le_compat_l; lra). lra.
Qed.
Lemma Bernoulli_up k x : 0 <= x <= 1 -> INR k * x <= / 2 -> (1 + x) ^ k <= 1 + INR k * x + 2 * (INR k * x) * (INR k * x).
Proof.
  intros H K. pose proof (Bernoulli_low k x H) as L. pose proof (pos_INR k) as N. set (q := INR k * x) in *. assert (Q : 0 <= q) by (unfold q; nra). clearbody q.
  assert (P : 0 < (1 + x) ^ k) by (apply pow_lt; lra). assert (M : (1 + x) ^ k * (1 - x) ^ k <= 1).
  { rewrite <- Rpow_mult_distr. replace 1 with (1 ^ k) at 3 by apply pow1. apply pow_incr. nra. }
  set (w := (1 + x) ^ k) in *. set (y := (1 - x) ^ k) in *. clearbody w y. assert (w * (1 - q) <= 1) by nra.
  assert (1 <= (1 + q + 2 * q * q) * (1 - q)) by nra. apply Rmult_le_reg_r with (1 - q); [lra|]. lra.
Qed.
(** errors of products of rounded factors *)
Definition near (i : nat) (r x : R) : Prop := r * (1 - u32) ^ i <= x <= r * (1 + u32) ^ i.
Lemma near_le i j r x : 0 <= r -> (i <= j)%nat -> near i r x -> near j r x.
Proof.
  intros R L [A B]. assert (U : u32 = / 16777216) by apply u32_value. split.
  - eapply Rle_trans; [|exact A]. apply Rmult_le_compat_l; [assumption|]. replace j with (i + (j - i))%nat by lia. rewrite pow_add.
    assert (0 <= (1 - u32) ^ i) by (apply pow_le; lra). assert ((1 - u32) ^ (j - i) <= 1) by (apply pow_le_1; lra). nra.
  - eapply Rle_trans; [exact B|]. apply Rmult_le_compat_l; [assumption|]. apply Rle_pow; [lra|assumption].
Qed.
Lemma near_bounds i r x : (i <= 200)%nat -> 0 <= r -> near i r x -> r * (9 / 10) <= x <= r * (11 / 10).
Proof.
  intros L R H. apply (near_le i 200) in H; [|assumption|assumption]. destruct H as [A B]. assert (U : u32 = / 16777216) by apply u32_value.
  assert (B1 : 9 / 10 <= (1 - u32) ^ 200). { pose proof (Bernoulli_low 200 u32) as Q. specialize (Q ltac:(lra)). replace (INR 200) with 200 in Q by (cbn; lra). lra. }
  assert (B2 : (1 + u32) ^ 200 <= 11 / 10). { pose proof (Bernoulli_up 200 u32) as Q. replace (INR 200) with 200 in Q by (cbn; lra). specialize (Q ltac:(lra) ltac:(lra)). rewrite U in *. lra. }
  split; nra.
Qed.
Lemma near_mul x y a b r s i j : denotes32 x a -> denotes32 y b -> near i r a -> near j s b -> 0 <= r -> 0 <= s -> (i + j <= 198)%nat -> / 2 ^ 119 <= r * s <= 2 ^ 119 ->
  denotes32 (b32_mul x y) (rnd32 (a * b)) /\ near (i + j + 1) (r * s) (rnd32 (a * b)).
Proof.
  intros Hx Hy Na Nb R S L B. assert (U : u32 = / 16777216) by apply u32_value.
  assert (N : near (i + j) (r * s) (a * b)).
  { destruct Na as [A1 A2], Nb as [B1 B2]. unfold near. rewrite !pow_add.
    assert (0 <= (1 - u32) ^ i) by (apply pow_le; lra). assert (0 <= (1 - u32) ^ j) by (apply pow_le; lra).
    assert (0 <= r * (1 - u32) ^ i) by now apply Rmult_le_pos. assert (0 <= s * (1 - u32) ^ j) by now apply Rmult_le_pos. split.
    - replace (r * s * ((1 - u32) ^ i * (1 - u32) ^ j)) with (r * (1 - u32) ^ i * (s * (1 - u32) ^ j)) by ring. now apply Rmult_le_compat.
    - replace (r * s * ((1 + u32) ^ i * (1 + u32) ^ j)) with (r * (1 + u32) ^ i * (s * (1 + u32) ^ j)) by ring. apply Rmult_le_compat; lra. }
  assert (RS : 0 <= r * s) by now apply Rmult_le_pos. pose proof (near_bounds (i + j) (r * s) (a * b) ltac:(lia) RS N) as [C1 C2].
  assert (P120 : 2 ^ 120 = 2 * 2 ^ 119) by reflexivity. assert (I120 : / 2 ^ 120 = / 2 * / 2 ^ 119) by (rewrite P120; apply Rinv_mult).
  assert (P119 : 0 < / 2 ^ 119) by (apply Rinv_0_lt_compat, pow_lt; lra). assert (AB : 0 <= a * b) by lra.
  assert (Q119 : 0 < 2 ^ 119) by (apply pow_lt; lra).
  split; [apply denotes_mul32; try assumption; apply abs_max32; rewrite Rabs_pos_eq by lra; rewrite P120; lra|].
  assert (W : within u32 (a * b) (rnd32 (a * b))) by (apply rnd32_within; right; rewrite Rabs_pos_eq by lra; rewrite I120; lra).
  unfold within in W. rewrite (Rabs_pos_eq (a * b)) in W by lra. apply Rabs_le_inv in W. destruct N as [N1 N2]. unfold near. rewrite !(pow_add _ (i + j)), !pow_1, <- !Rmult_assoc. rewrite U in *. split; nra.
Qed.
Lemma pow_between v k j : 0 < v -> / 2 ^ 119 <= v ^ k <= 2 ^ 119 -> (j <= k)%nat -> / 2 ^ 119 <= v ^ j <= 2 ^ 119.
Proof.
  intros V B L. assert (P1 : 1 <= 2 ^ 119) by (apply pow_R1_Rle; lra). assert (P2 : / 2 ^ 119 <= 1) by (rewrite <- Rinv_1; apply Rinv_le_contravar; lra).
  destruct (Rle_or_lt 1 v) as [G|G].
  - assert (1 <= v ^ j) by now apply pow_R1_Rle. assert (v ^ j <= v ^ k) by now apply Rle_pow. lra.
  - assert (v ^ j <= 1) by (apply pow_le_1; lra).
    assert (v ^ k <= v ^ j); [|lra]. replace k with (j + (k - j))%nat by lia. rewrite pow_add. assert (0 < v ^ j) by now apply pow_lt.
    assert (v ^ (k - j) <= 1) by (apply pow_le_1; lra). nra.
Qed.
Lemma loop_near v k : 0 < v -> / 2 ^ 119 <= v ^ k <= 2 ^ 119 -> (k <= 99)%nat -> forall n aa p a b m t, (1 <= t)%nat -> (m + t * Pos.to_nat n = k)%nat ->
  denotes32 aa a -> near m (v ^ m) a -> denotes32 p b -> near (t - 1) (v ^ t) b -> exists w, denotes32 (pow_loop n aa p) w /\ near k (v ^ k) w.
Proof.
  intros V B K. assert (Pw : forall j, 0 <= v ^ j) by (intros j; apply pow_le; lra).
  assert (Sq : forall p b t, (1 <= t)%nat -> (t + t <= k)%nat -> denotes32 p b -> near (t - 1) (v ^ t) b -> exists w, denotes32 (b32_mul p p) w /\ near (t + t - 1) (v ^ (t + t)) w).
  { intros p b t T1 T2 Hp Np. exists (rnd32 (b * b)).
    destruct (near_mul p p b b (v ^ t) (v ^ t) (t - 1) (t - 1) Hp Hp Np Np (Pw t) (Pw t) ltac:(lia)) as [D N]; [rewrite <- pow_add; now apply (pow_between v k)|].
    split; [exact D|]. rewrite <- pow_add in N. now replace (t - 1 + (t - 1) + 1)%nat with (t + t - 1)%nat in N by lia. }
  assert (Ml : forall aa p a b m t, (1 <= t)%nat -> (m + t <= k)%nat -> denotes32 aa a -> near m (v ^ m) a -> denotes32 p b -> near (t - 1) (v ^ t) b -> exists w, denotes32 (b32_mul aa p) w /\ near (m + t) (v ^ (m + t)) w).
  { intros aa p a b m t T1 T2 Ha Na Hp Np. exists (rnd32 (a * b)).
    destruct (near_mul aa p a b (v ^ m) (v ^ t) m (t - 1) Ha Hp Na Np (Pw m) (Pw t) ltac:(lia)) as [D N]; [rewrite <- pow_add; now apply (pow_between v k)|].
    split; [exact D|]. rewrite <- pow_add in N. now replace (m + (t - 1) + 1)%nat with (m + t)%nat in N by lia. }
  induction n as [n IH|n IH|]; intros aa p a b m t T1 E Ha Na Hp Np; cbn [pow_loop].
  - rewrite Pos2Nat.inj_xI in E. pose proof (Pos2Nat.is_pos n). destruct (Ml aa p a b m t T1 ltac:(nia) Ha Na Hp Np) as (w & Dw & Nw). destruct (Sq p b t T1 ltac:(nia) Hp Np) as (z & Dz & Nz).
    apply (IH _ _ w z (m + t)%nat (t + t)%nat); try assumption; nia.
  - rewrite Pos2Nat.inj_xO in E. pose proof (Pos2Nat.is_pos n). destruct (Sq p b t T1 ltac:(nia) Hp Np) as (z & Dz & Nz). apply (IH _ _ a z m (t + t)%nat); try assumption; nia.
  - change (Pos.to_nat 1) with 1%nat in E. destruct (Ml aa p a b m t T1 ltac:(lia) Ha Na Hp Np) as (w & Dw & Nw). exists w. split; [exact Dw|]. now replace (m + t)%nat with k in Nw by lia.
Qed.
Lemma near_refl v : near 0 v v.
Proof. unfold near. cbn. lra. Qed.
Lemma power_near l v k : denotes32 l v -> 0 < v -> / 2 ^ 119 <= v ^ k <= 2 ^ 119 -> (1 <= k <= 99)%nat -> exists w, denotes32 (power32 l k) w /\ near k (v ^ k) w.
Proof.
  intros Hl V B K. assert (Pw : forall j, 0 <= v ^ j) by (intros j; apply pow_le; lra).
  assert (N1 : near 0 (v ^ 1) v) by (rewrite pow_1; apply near_refl).
  assert (S2 : (2 <= k)%nat -> denotes32 (b32_mul l l) (rnd32 (v * v)) /\ near 1 (v ^ 2) (rnd32 (v * v))).
  { intros K2. replace (v ^ 2) with (v ^ 1 * v ^ 1) by ring. apply (near_mul l l v v (v ^ 1) (v ^ 1) 0 0); auto; try lia. rewrite <- pow_add. now apply (pow_between v k). }
  destruct k as [|[|[|[|k]]]]; [lia| | | |].
  - exists v. split; [exact Hl|]. apply (near_le 0); [apply Pw|lia|exact N1].
  - destruct S2 as [D N]; [lia|]. exists (rnd32 (v * v)). split; [exact D|]. apply (near_le 1); [apply Pw|lia|exact N].
  - destruct S2 as [D N]; [lia|]. exists (rnd32 (v * rnd32 (v * v))).
    destruct (near_mul l _ v _ (v ^ 1) (v ^ 2) 0 1 Hl D N1 N (Pw _) (Pw _) ltac:(lia)) as [D3 N3]; [rewrite <- pow_add; exact B|].
    split; [exact D3|]. rewrite <- pow_add in N3. apply (near_le 2); [apply Pw|lia|exact N3].
  - apply (loop_near v _ V B ltac:(lia) _ b32_one l 1 v 0 1); try assumption; try lia; [apply denotes_one32|apply near_refl].
Qed.
Lemma power_zero l k : denotes32 l 0 -> (1 <= k)%nat -> denotes32 (power32 l k) 0.
Proof.
  intros Hl K. assert (Z0 : 0 <= 0 <= bpow radix2 (-200)) by (split; [lra|apply bpow_ge_0]).
  destruct k as [|[|[|[|k]]]]; [lia|exact Hl| | |].
  - now apply (denotes_tiny32 _ _ 0 0 (-200) (-200)).
  - apply (denotes_tiny32 _ _ 0 0 (-200) (-200)); try assumption; try lia. now apply (denotes_tiny32 _ _ 0 0 (-200) (-200)).
  - apply (loop_zero _ _ _ 1); [apply denotes_one32|lra|exact Hl].
Qed.
Lemma power_within l v ev k : denotes32 l v -> within (2 * u32) ev v -> (1 <= k <= 99)%nat -> ev = 0 \/ (0 < ev /\ / 2 ^ 118 <= ev ^ k <= 2 ^ 118) ->
  exists w, denotes32 (power32 l k) w /\ within (4 * INR k * u32) (ev ^ k) w.
Proof.
  intros Hl W K [->|[E B]].
  - exists 0. unfold within in W. rewrite Rabs_R0, Rmult_0_r, Rminus_0_r in W. pose proof (Rabs_pos v).
    assert (v = 0) as -> by (destruct (Req_dec v 0) as [|N]; [assumption|apply Rabs_pos_lt in N; lra]).
    split; [apply power_zero; [assumption|lia]|]. rewrite pow_i by lia. pose proof (pos_INR k). apply within_weaken with 0; [rewrite u32_value; lra|apply within_refl].
  - assert (U : u32 = / 16777216) by apply u32_value. assert (V : 0 < v) by (apply (within_pos (2 * u32) ev); [rewrite U; lra|assumption|assumption]).
    unfold within in W. rewrite (Rabs_pos_eq ev) in W by lra. apply Rabs_le_inv in W.
    assert (K1 : 1 <= INR k <= 99). { split; [apply (le_INR 1); lia|]. replace 99 with (INR 99) by (cbn; lra). apply le_INR. lia. }
    assert (EK : 0 < ev ^ k) by now apply pow_lt.
    assert (L : ev ^ k * (1 - 2 * u32) ^ k <= v ^ k) by (rewrite <- Rpow_mult_distr; apply pow_incr; rewrite U in *; nra).
    assert (H : v ^ k <= ev ^ k * (1 + 2 * u32) ^ k) by (rewrite <- Rpow_mult_distr; apply pow_incr; rewrite U in *; nra).
    pose proof (Bernoulli_low k (2 * u32) ltac:(lra)) as L1. pose proof (Bernoulli_up k (2 * u32) ltac:(lra) ltac:(rewrite U; lra)) as H1.
    pose proof (Bernoulli_low k u32 ltac:(lra)) as L2. pose proof (Bernoulli_up k u32 ltac:(lra) ltac:(rewrite U; lra)) as H2.
    set (n := INR k) in *. assert (NN : n * n <= 99 * n) by nra. clearbody n.
    assert (H1' : (1 + 2 * u32) ^ k <= 1 + 21 / 10 * n * u32) by (rewrite U in *; lra). assert (H2' : (1 + u32) ^ k <= 1 + 11 / 10 * n * u32) by (rewrite U in *; lra).
    assert (P119 : 2 ^ 119 = 2 * 2 ^ 118) by reflexivity. assert (I119 : / 2 ^ 119 = / 2 * / 2 ^ 118) by (rewrite P119; apply Rinv_mult).
    assert (B' : / 2 ^ 119 <= v ^ k <= 2 ^ 119).
    { assert (9 / 10 <= (1 - 2 * u32) ^ k) by (rewrite U in *; lra). assert ((1 + 2 * u32) ^ k <= 11 / 10) by (rewrite U in *; lra). split; nra. }
    destruct (power_near l v k Hl V B' K) as (w & Dw & N1 & N2). exists w. split; [exact Dw|]. unfold within. rewrite (Rabs_pos_eq (ev ^ k)) by lra.
    set (e := ev ^ k) in *. set (vk := v ^ k) in *. set (a := (1 - 2 * u32) ^ k) in *. set (b := (1 + 2 * u32) ^ k) in *. set (c := (1 - u32) ^ k) in *. set (d := (1 + u32) ^ k) in *.
    assert (C0 : 0 <= c) by (unfold c; apply pow_le; rewrite U; lra). assert (D0 : 0 <= d) by (unfold d; apply pow_le; rewrite U; lra). assert (B0 : 0 <= b) by (unfold b; apply pow_le; rewrite U; lra). clearbody e vk a b c d. clear B B' I119 P119.
    assert (LW : e * (a * c) <= w) by (eapply Rle_trans; [|exact N1]; rewrite <- Rmult_assoc; apply Rmult_le_compat_r; assumption).
    assert (HW : w <= e * (b * d)) by (eapply Rle_trans; [exact N2|]; rewrite <- Rmult_assoc; apply Rmult_le_compat_r; assumption).
    assert (AC : 1 - 4 * n * u32 <= a * c).
    { apply Rle_trans with ((1 - n * (2 * u32)) * (1 - n * u32)); [rewrite U in *; nra|apply Rmult_le_compat; rewrite U in *; lra]. }
    assert (BD : b * d <= 1 + 4 * n * u32).
    { apply Rle_trans with ((1 + 21 / 10 * n * u32) * (1 + 11 / 10 * n * u32)); [apply Rmult_le_compat; assumption|rewrite U in *; nra]. }
    apply Rabs_le. split; nra.
Qed.
Lemma diffuse_accurate coeff dt c d order l p e m x a : denotes coeff c -> denotes dt d -> d * c = 0 \/ / 2 ^ 60 <= d * c <= 2 ^ 100 ->
  denotes32 (power32 l order) p -> 0 <= e -> 4 <= m <= 400 -> within (m * u32) e p -> d * c * e <= 2 ^ 100 -> denotes32 x a -> Rabs a <= 2 ^ 100 ->
  exists w, denotes32 (diffuse32 coeff dt order l x) w /\ Rabs (w - a / (1 + d * c * e)) <= (m + 8) * u32 * Rabs (a / (1 + d * c * e)) + / 2 ^ 150.
Proof.
  intros Hc Hd HK Dp E0 HM Wp HT Hx HA.
  assert (P100 : 2 ^ 100 = 1267650600228229401496703205376) by (rewrite (pow_IZR 2 100); reflexivity).
  assert (P120 : 2 ^ 120 = 1329227995784915872903807060280344576) by (rewrite (pow_IZR 2 120); reflexivity). assert (U : u32 = / 16777216) by apply u32_value.
  assert (I60 : 0 < / 2 ^ 60) by (apply Rinv_0_lt_compat, pow_lt; lra). assert (K0 : 0 <= d * c <= 2 ^ 100) by (destruct HK as [->|HK]; [split; [lra|apply pow_le; lra]|lra]).
  assert (WK : within (2 * u32) (d * c) (rnd32 (rnd (d * c)))) by (apply factor_within; tauto).
  assert (DK : denotes32 (cast32 (b64_mul dt coeff)) (rnd32 (rnd (d * c)))).
  { apply denotes_factor; try assumption. rewrite Rabs_pos_eq by lra. apply Rle_trans with (2 ^ 100); [lra|apply Rle_pow; [lra|lia]]. }
  assert (MM : m * m <= 400 * m) by nra.
  set (k := rnd32 (rnd (d * c))) in *. set (q := d * c * e) in *. assert (Q0 : 0 <= q) by (apply Rmult_le_pos; lra).
  assert (WT : within ((m + 21 / 10) * u32) q (k * p)). { eapply within_weaken; [|apply (within_mul (2 * u32) (m * u32) _ _ _ _ ltac:(rewrite U; lra) ltac:(rewrite U; lra) WK Wp)]. rewrite U. lra. }
  pose proof (within_size _ _ _ WT) as ST. rewrite (Rabs_pos_eq q) in ST by lra. rewrite U in ST. rewrite P100 in HT.
  assert (MQ : (1 + (m + 21 / 10) * / 16777216) * q <= 2 * q) by (apply Rmult_le_compat_r; lra).
  assert (DT : denotes32 (b32_mul (cast32 (b64_mul dt coeff)) (power32 l order)) (rnd32 (k * p))).
  { apply denotes_mul32; try assumption. apply abs_max32. rewrite P120. lra. }
  pose proof (rnd32_err (k * p)) as ET. rewrite U in ET. set (t := rnd32 (k * p)) in *. set (eta := / 2 ^ 150) in *.
  assert (EP : 0 < eta <= / 1427247692705959881058285969449495136382746624).
  { unfold eta. assert (E150 : 2 ^ 150 = 1427247692705959881058285969449495136382746624) by (rewrite (pow_IZR 2 150); reflexivity). rewrite E150. lra. }
  assert (W1 : within ((m + 32 / 10) * u32) (1 + q) (1 + t)).
  { unfold within in *. rewrite (Rabs_pos_eq (1 + q)) by lra. rewrite (Rabs_pos_eq q) in WT by lra. rewrite U in *. replace (1 + t - (1 + q)) with ((t - k * p) + (k * p - q)) by ring.
    eapply Rle_trans; [apply Rabs_triang|].
    assert (/ 16777216 * Rabs (k * p) <= / 16777216 * ((1 + 403 * / 16777216) * q)) by (apply Rmult_le_compat_l; [lra|]; eapply Rle_trans; [exact ST|]; apply Rmult_le_compat_r; lra).
    assert (0 <= m * q) by (apply Rmult_le_pos; lra). lra. }
  assert (R1 : forall z, 0 <= z -> (1 + (m + 32 / 10) * / 16777216) * z <= 2 * z /\ 9 / 10 * z <= (1 - (m + 32 / 10) * / 16777216) * z) by (intros z Hz; split; apply Rmult_le_compat_r; lra).
  assert (R2 : forall z, 0 <= z -> (1 + (m + 43 / 10) * / 16777216) * z <= 2 * z /\ 9 / 10 * z <= (1 - (m + 43 / 10) * / 16777216) * z) by (intros z Hz; split; apply Rmult_le_compat_r; lra).
  pose proof (within_size _ _ _ W1) as S1. pose proof (within_low _ _ _ W1) as L1. rewrite (Rabs_pos_eq (1 + q)) in S1, L1 by lra. rewrite U in S1, L1. pose proof (R1 (1 + q) ltac:(lra)) as [R1a R1b].
  assert (D1 : denotes32 (denominator32 coeff dt order l) (rnd32 (1 + t))).
  { apply denotes_add32; [apply denotes_one32|assumption|]. apply abs_max32. rewrite P120. lra. }
  assert (W2 : within ((m + 43 / 10) * u32) (1 + q) (rnd32 (1 + t))).
  { eapply within_weaken; [|eapply within_trans; [|exact W1|apply rnd32_within]]; [rewrite U; lra|lra|right; rewrite P120; lra]. }
  set (dn := rnd32 (1 + t)) in *. pose proof (within_low _ _ _ W2) as L2. pose proof (within_size _ _ _ W2) as S2. rewrite (Rabs_pos_eq (1 + q)) in L2, S2 by lra. rewrite U in L2, S2. pose proof (R2 (1 + q) ltac:(lra)) as [R2a R2b].
  assert (Pd : 0 < dn) by (apply (within_pos ((m + 43 / 10) * u32) (1 + q)); [rewrite U; lra|lra|assumption]). rewrite (Rabs_pos_eq dn) in L2, S2 by lra.
  pose proof (within_inv ((m + 43 / 10) * u32) (1 + q) dn ltac:(rewrite U; lra) ltac:(lra) W2) as W3.
  apply (within_weaken _ ((m + 45 / 10) * u32)) in W3; [|rewrite U; lra].
  pose proof (inv_mono (1 + q) 2535301200456458802993406410752 ltac:(lra) ltac:(lra)) as [_ J1]. pose proof (inv_mono 1 (1 + q) ltac:(lra) ltac:(lra)) as [J0 J2]. rewrite Rinv_1 in J2.
  pose proof (within_size _ _ _ W3) as S3. pose proof (within_low _ _ _ W3) as L3. rewrite (Rabs_pos_eq (/ (1 + q))) in S3, L3 by lra. rewrite U in S3, L3.
  assert (R3a : (1 + (m + 45 / 10) * / 16777216) * / (1 + q) <= 2 * / (1 + q)) by (apply Rmult_le_compat_r; lra). assert (R3b : 9 / 10 * / (1 + q) <= (1 - (m + 45 / 10) * / 16777216) * / (1 + q)) by (apply Rmult_le_compat_r; lra).
  assert (D2 : denotes32 (b32_div b32_one (denominator32 coeff dt order l)) (rnd32 (1 / dn))).
  { apply denotes_div32; [apply denotes_one32|assumption|lra|]. apply abs_max32. unfold Rdiv. rewrite Rmult_1_l, P120. lra. }
  replace (1 / dn) with (/ dn) in D2 by (unfold Rdiv; ring).
  assert (W4 : within ((m + 57 / 10) * u32) (/ (1 + q)) (rnd32 (/ dn))).
  { eapply within_weaken; [|eapply within_trans; [|exact W3|apply rnd32_within]]; [rewrite U; lra|lra|right; rewrite P120; lra]. }
  set (s := rnd32 (/ dn)) in *. pose proof (within_size _ _ _ W4) as S4. rewrite (Rabs_pos_eq (/ (1 + q))) in S4 by lra. rewrite U in S4.
  assert (R4 : (1 + (m + 57 / 10) * / 16777216) * / (1 + q) <= 2 * / (1 + q)) by (apply Rmult_le_compat_r; lra).
  exists (rnd32 (a * s)). rewrite P100 in HA. pose proof (Rabs_pos a) as A0. pose proof (Rabs_pos s) as Sp. assert (AS : Rabs (a * s) <= Rabs a * 2) by (rewrite Rabs_mult; apply Rmult_le_compat_l; lra).
  split.
  - unfold diffuse32. apply denotes_mul32; try assumption. apply abs_max32. rewrite P120. lra.
  - assert (WA : within ((m + 57 / 10) * u32) (a / (1 + q)) (a * s)).
    { unfold within in *. unfold Rdiv. replace (a * s - a * / (1 + q)) with (a * (s - / (1 + q))) by ring. rewrite !Rabs_mult.
      replace ((m + 57 * / 10) * u32 * (Rabs a * Rabs (/ (1 + q)))) with (Rabs a * ((m + 57 / 10) * u32 * Rabs (/ (1 + q)))) by (unfold Rdiv; ring). now apply Rmult_le_compat_l. }
    pose proof (within_size _ _ _ WA) as S5. pose proof (rnd32_err (a * s)) as E. fold eta in E. unfold within in WA. rewrite U in *.
    replace (rnd32 (a * s) - a / (1 + q)) with ((rnd32 (a * s) - a * s) + (a * s - a / (1 + q))) by ring. eapply Rle_trans; [apply Rabs_triang|].
    set (y := Rabs (a / (1 + q))) in *. assert (Y : 0 <= y) by apply Rabs_pos.
    assert ((1 + (m + 57 / 10) * / 16777216) * y <= 2 * y) by (apply Rmult_le_compat_r; lra). assert (0 <= m * y) by (apply Rmult_le_pos; lra). lra.
Qed.
