(** Binary64 arithmetic: the standard library's SpecFloat computes what Flocq
    specifies.  The bridge lemmas follow Flocq's PrimFloat.v, which is not
    imported because of the axioms about primitive floats. *)
From Coq Require Import Reals ZArith Lia Lra Floats.SpecFloat.
From Flocq Require Import Core Relative.
From Verif Require Import Model_Float Spec_Float.
From Flocq Require Import BinarySingleNaN.
Open Scope R_scope.

Lemma Hprec : FLX.Prec_gt_0 53. Proof. now unfold FLX.Prec_gt_0. Qed.
Lemma Hmax : Prec_lt_emax 53 1024. Proof. now unfold Prec_lt_emax. Qed.
Global Existing Instance Hprec.
Global Existing Instance Hmax.
Notation bf := (binary_float 53 1024).
Notation toB x H := (@SF2B 53 1024 x H).
Notation fe := (SpecFloat.fexp 53 1024).
Notation rnd := (round radix2 fe (round_mode mode_NE)).

Lemma nearest_even_equiv s m l : round_nearest_even m l = choice_mode mode_NE s m l.
Proof. case l; [reflexivity|intro c]. case c; [|reflexivity..]. now simpl; unfold Round.cond_incr; case Z.even. Qed.
Lemma round_aux_equiv sx mx ex lx : SpecFloat.binary_round_aux 53 1024 sx mx ex lx = BinarySingleNaN.binary_round_aux 53 1024 mode_NE sx mx ex lx.
Proof.
  unfold SpecFloat.binary_round_aux, BinarySingleNaN.binary_round_aux. set (mrse' := shr_fexp _ _ _). case mrse'; intros mrs' e'; simpl. now rewrite (nearest_even_equiv sx).
Qed.
Lemma round_equiv s m e : SpecFloat.binary_round 53 1024 s m e = binary_round 53 1024 mode_NE s m e.
Proof. unfold SpecFloat.binary_round, binary_round, shl_align_fexp. set (mez := shl_align _ _ _); case mez as [mz ez]. apply round_aux_equiv. Qed.
Lemma div_equiv (x y : bf) : SFdiv 53 1024 (B2SF x) (B2SF y) = B2SF (Bdiv mode_NE x y).
Proof.
  case x as [sx|sx| |sx mx ex Bx]; case y as [sy|sy| |sy my ey By]; [now (trivial || simpl; case Bool.eqb)..|].
  simpl. rewrite B2SF_SF2B. set (melz := SFdiv_core_binary _ _ _ _ _ _). case melz as [[mz ez] lz]. apply round_aux_equiv.
Qed.
Lemma of_Z_equiv z : b64_of_Z z = B2SF (binary_normalize 53 1024 Hprec Hmax mode_NE z 0 false).
Proof. unfold b64_of_Z, b64_prec, b64_emax. case z as [|p|p]; [reflexivity| |]; simpl; rewrite B2SF_SF2B; apply round_equiv. Qed.

Lemma value_B2R (x : bf) : float_value (B2SF x) = B2R x.
Proof.
  destruct x as [s|s| |s m e H]; try reflexivity. unfold float_value, B2SF, B2R, F2R. cbn [Fnum Fexp]. change 2 with (IZR (radix_val radix2)). rewrite <- bpow_powerRZ. f_equal. now destruct s.
Qed.
Lemma half_ulp_bpow : half_ulp = / 2 * bpow radix2 (- (53) + 1).
Proof. unfold half_ulp. change (- (53) + 1)%Z with (-52)%Z. cbn. lra. Qed.
(** integers up to 2^53 are doubles *)
Lemma int_format z : (Z.abs z <= 2 ^ 53)%Z -> generic_format radix2 fe (IZR z).
Proof.
  intros H. destruct (Z.eq_dec (Z.abs z) (2 ^ 53)) as [E|E].
  - assert (G : generic_format radix2 fe (bpow radix2 53)).
    { apply (generic_format_FLT_bpow radix2 (3 - 1024 - 53) 53). lia. }
    change (bpow radix2 53) with (IZR (2 ^ 53)) in G. rewrite <- E in G. destruct (Z_le_dec 0 z) as [P|P].
    + now rewrite Z.abs_eq in G by assumption.
    + rewrite Z.abs_neq in G by lia. rewrite <- (Z.opp_involutive z), opp_IZR. now apply generic_format_opp.
  - apply (generic_format_FLT radix2 (3 - 1024 - 53) 53). exists (Float radix2 z 0).
    + unfold F2R. cbn. lra.
    + cbn [Fnum]. change (radix_val radix2) with 2%Z. lia.
    + cbn. lia.
Qed.
Lemma IZR_max z : (Z.abs z <= 2 ^ 53)%Z -> Rabs (IZR z) < bpow radix2 1024.
Proof.
  intros H. rewrite <- abs_IZR. apply Rle_lt_trans with (IZR (2 ^ 53)); [now apply IZR_le|].
  change (IZR (2 ^ 53)) with (bpow radix2 53). now apply bpow_lt.
Qed.
Lemma of_Z_value z : (Z.abs z <= 2 ^ 53)%Z -> exists b : bf, b64_of_Z z = B2SF b /\ B2R b = IZR z /\ is_finite b = true.
Proof.
  intros H. eexists. split; [apply of_Z_equiv|].
  pose proof (binary_normalize_correct 53 1024 Hprec Hmax mode_NE z 0 false) as C. cbv zeta in C.
  replace (F2R (Float radix2 z 0)) with (IZR z) in C by (unfold F2R; cbn; lra).
  rewrite round_generic in C; [|apply valid_rnd_round_mode|now apply int_format].
  rewrite Rlt_bool_true in C by now apply IZR_max. tauto.
Qed.
Lemma int_floor (b : bf) : is_finite b = true -> 0 <= B2R b -> b64_int (B2SF b) = Some (Zfloor (B2R b)).
Proof.
  destruct b as [s|s| |s m e H]; try discriminate; intros _ P.
  - cbn. f_equal. symmetry. apply (Zfloor_IZR 0).
  - destruct s.
    + exfalso. unfold B2R, F2R in P. cbn [Fnum Fexp cond_Zopp] in P. pose proof (bpow_gt_0 radix2 e). assert (IZR (Z.opp (Zpos m)) < 0) by now apply IZR_lt. nra.
    + unfold B2SF, b64_int, B2R, F2R. cbn [Fnum Fexp cond_Zopp]. f_equal. destruct e as [|p|p].
      * cbn [bpow]. rewrite Rmult_1_r. now rewrite Zfloor_IZR.
      * change (bpow radix2 (Z.pos p)) with (IZR (Z.pow_pos 2 p)). rewrite <- mult_IZR. now rewrite Zfloor_IZR.
      * change (bpow radix2 (Z.neg p)) with (/ IZR (Z.pow_pos 2 p)). symmetry. apply Zfloor_div. change (Z.pow_pos 2 p) with (2 ^ Z.pos p)%Z. lia.
Qed.

Lemma div_value (x y : bf) : is_finite x = true -> is_finite y = true -> 0 < B2R y -> 0 <= B2R x -> B2R x / B2R y <= IZR (2 ^ 53) ->
  exists b : bf, b64_div (B2SF x) (B2SF y) = B2SF b /\ B2R b = rnd (B2R x / B2R y) /\ is_finite b = true.
Proof.
  intros Fx Fy Py Px Q. exists (Bdiv mode_NE x y). split; [apply div_equiv|].
  assert (Ny : B2R y <> 0) by lra.
  pose proof (Bdiv_correct 53 1024 Hprec Hmax mode_NE x y Ny) as C.
  assert (Q0 : 0 <= B2R x / B2R y) by (apply Rmult_le_pos; [assumption|left; now apply Rinv_0_lt_compat]).
  rewrite Rlt_bool_true in C; [destruct C as (C1 & C2 & _); now rewrite C2|].
  rewrite Rabs_pos_eq.
  - apply Rle_lt_trans with (IZR (2 ^ 53)).
    + apply round_le_generic; [apply fexp_correct; exact Hprec|apply valid_rnd_round_mode|apply int_format; lia|assumption].
    + change (IZR (2 ^ 53)) with (bpow radix2 53). now apply bpow_lt.
  - apply round_ge_generic; [apply fexp_correct; exact Hprec|apply valid_rnd_round_mode|apply (int_format 0); lia|assumption].
Qed.
(** relative error of the rounding *)
Lemma rnd_error q : / 2 ^ 100 <= q -> Rabs (rnd q - q) <= half_ulp * q.
Proof.
  intros H. rewrite half_ulp_bpow. assert (P : 0 < / 2 ^ 100) by (apply Rinv_0_lt_compat, pow_lt; lra).
  pose proof (relative_error_N_FLT radix2 (3 - 1024 - 53) 53 Hprec (fun n => negb (Z.even n)) q) as E.
  rewrite (Rabs_pos_eq q) in E by lra. apply E.
  apply Rle_trans with (bpow radix2 (-100)); [apply bpow_le; lia|]. replace (bpow radix2 (-100)) with (/ 2 ^ 100); [assumption|]. cbn. lra.
Qed.

Lemma double_value (y : b64) : is_double y -> 0 < float_value y -> exists b : bf, y = B2SF b /\ B2R b = float_value y /\ is_finite b = true.
Proof.
  intros D P. exists (SF2B y D). assert (E : B2SF (SF2B y D) = y) by apply B2SF_SF2B. split; [now symmetry|].
  split; [rewrite <- value_B2R; now rewrite E|]. destruct y as [s|s| |s m e]; cbn in P; try lra. reflexivity.
Qed.
Lemma half_ulp_bounds : 0 < half_ulp <= / 2 ^ 53.
Proof. unfold half_ulp. split; [apply Rinv_0_lt_compat, pow_lt; lra|lra]. Qed.
Lemma half_ulp_2_52 : half_ulp * IZR (2 ^ 52) = / 2.
Proof. unfold half_ulp. rewrite (pow_IZR 2 53). change (2 ^ Z.of_nat 53)%Z with 9007199254740992%Z. change (2 ^ 52)%Z with 4503599627370496%Z. field. Qed.

(** truncating the rounded quotient *)
Lemma int_rnd q : 0 < q < IZR (2 ^ 52) -> integer_part_up_to_rounding q (Zfloor (rnd q)).
Proof.
  intros [P Q]. set (k := Zfloor q).
  assert (K1 : IZR k <= q) by apply Zfloor_lb. assert (K2 : q < IZR k + 1) by apply Zfloor_ub.
  assert (K0 : (0 <= k)%Z) by (apply Zfloor_lub; cbn; lra).
  assert (KM : (k < 2 ^ 52)%Z) by (apply lt_IZR; lra).
  assert (R1 : IZR k <= rnd q).
  { apply round_ge_generic; [apply fexp_correct; exact Hprec|apply valid_rnd_round_mode|apply int_format; lia|assumption]. }
  assert (R2 : rnd q <= IZR (k + 1)).
  { apply round_le_generic; [apply fexp_correct; exact Hprec|apply valid_rnd_round_mode|apply int_format; lia|rewrite plus_IZR; lra]. }
  destruct R2 as [R2|R2].
  - left. replace (Zfloor (rnd q)) with k; [lra|]. symmetry. apply Zfloor_imp. now split.
  - assert (Zfloor (rnd q) = k + 1)%Z as -> by (rewrite R2; apply Zfloor_IZR). right. split; [|rewrite plus_IZR; lra].
    assert (Half : / 2 <= q).
    { destruct (Rle_or_lt (/ 2) q) as [G|G]; [assumption|]. exfalso.
      assert (rnd q <= / 2).
      { apply round_le_generic; [apply fexp_correct; exact Hprec|apply valid_rnd_round_mode| |lra].
        change (/ 2) with (bpow radix2 (-1)). apply (generic_format_FLT_bpow radix2 (3 - 1024 - 53) 53). lia. }
      rewrite R2 in H. assert (1 <= IZR (k + 1)) by (apply IZR_le; lia). lra. }
    assert (B : / 2 ^ 100 <= q).
    { apply Rle_trans with (/ 2); [|assumption]. apply Rinv_le_contravar; [lra|]. assert (1 <= 2 ^ 99) by (apply pow_R1_Rle; lra). change (2 ^ 100) with (2 * 2 ^ 99). lra. }
    pose proof (rnd_error q B) as E. rewrite R2 in E. apply Rabs_le_inv in E. rewrite plus_IZR in *. pose proof half_ulp_bounds. nra.
Qed.
Lemma int_quotient A (y : b64) : (0 < A <= 2 ^ 53)%Z -> is_double y -> 0 < float_value y -> IZR A / float_value y < IZR (2 ^ 52) ->
  exists n, b64_int (b64_div (b64_of_Z A) y) = Some n /\ integer_part_up_to_rounding (IZR A / float_value y) n.
Proof.
  intros HA D P Q. destruct (double_value y D P) as (b & -> & Vb & Fb). destruct (of_Z_value A) as (a & -> & Va & Fa); [lia|].
  assert (A0 : 0 < IZR A) by (apply IZR_lt; lia).
  rewrite value_B2R in *. assert (Q0 : 0 < IZR A / B2R b) by (apply Rdiv_lt_0_compat; assumption).
  destruct (div_value a b Fa Fb P) as (c & -> & Vc & Fc).
  - rewrite Va. lra.
  - rewrite Va. apply Rle_trans with (IZR (2 ^ 52)); [lra|apply IZR_le; lia].
  - rewrite Va in Vc. exists (Zfloor (B2R c)). split.
    + apply int_floor; [assumption|]. rewrite Vc. apply round_ge_generic; [apply fexp_correct; exact Hprec|apply valid_rnd_round_mode|apply (int_format 0); lia|lra].
    + rewrite Vc. apply int_rnd. lra.
Qed.
(** the rounded quotient of two integers *)
Lemma quotient_double A n : (0 < A <= 2 ^ 53)%Z -> (0 < n <= 2 ^ 50)%Z -> let r := b64_div (b64_of_Z A) (b64_of_Z n) in
  is_double r /\ 0 < float_value r /\ Rabs (float_value r * IZR n - IZR A) <= half_ulp * IZR A.
Proof.
  intros HA Hn r. destruct (of_Z_value A) as (a & Ea & Va & Fa); [lia|]. destruct (of_Z_value n) as (b & Eb & Vb & Fb); [lia|].
  assert (A1 : 1 <= IZR A) by (apply IZR_le; lia). assert (N1 : 1 <= IZR n) by (apply IZR_le; lia).
  assert (NM : IZR n <= IZR (2 ^ 50)) by (apply IZR_le; lia). assert (AM : IZR A <= IZR (2 ^ 53)) by (apply IZR_le; lia).
  set (q := IZR A / IZR n). assert (Eq : q * IZR n = IZR A) by (unfold q; field; lra).
  assert (Q0 : 0 < q) by (apply Rdiv_lt_0_compat; lra).
  destruct (div_value a b Fa Fb) as (c & Ec & Vc & Fc); [rewrite Vb; lra|rewrite Va; lra|rewrite Va, Vb; fold q; nra|].
  unfold r. rewrite Ea, Eb, Ec. rewrite value_B2R, Vc, Va, Vb. fold q.
  assert (B : / 2 ^ 50 <= q).
  { apply Rmult_le_reg_r with (2 ^ 50); [apply pow_lt; lra|]. rewrite Rinv_l by (apply pow_nonzero; lra).
    rewrite (pow_IZR 2 50). change (2 ^ Z.of_nat 50)%Z with (2 ^ 50)%Z. nra. }
  assert (B' : / 2 ^ 100 <= q).
  { apply Rle_trans with (/ 2 ^ 50); [|assumption]. apply Rinv_le_contravar; [apply pow_lt; lra|]. apply Rle_pow; [lra|lia]. }
  pose proof (rnd_error q B') as E. apply Rabs_le_inv in E. pose proof half_ulp_bounds as U.
  assert (U1 : half_ulp <= / 2). { pose proof half_ulp_2_52. assert (1 <= IZR (2 ^ 52)) by (apply IZR_le; lia). nra. }
  split; [|split].
  - unfold is_double. apply valid_binary_B2SF.
  - nra.
  - apply Rabs_le. rewrite <- Eq. split; nra.
Qed.
(** recovering the integer *)
Lemma int_part_near q n N : (0 < N <= 2 ^ 50)%Z -> Rabs (q - IZR N) <= 4 * half_ulp * IZR N -> integer_part_up_to_rounding q n -> n = N \/ n = (N - 1)%Z.
Proof.
  intros HN E I. apply Rabs_le_inv in E. assert (NM : IZR N <= IZR (2 ^ 50)) by (apply IZR_le; lia). assert (N1 : 1 <= IZR N) by (apply IZR_le; lia).
  assert (U : half_ulp * IZR (2 ^ 50) = / 8). { pose proof half_ulp_2_52 as H. change (2 ^ 52)%Z with (2 ^ 50 * 4)%Z in H. rewrite mult_IZR in H. lra. }
  pose proof half_ulp_bounds as [U0 _]. assert (E' : 4 * half_ulp * IZR N <= / 2) by nra.
  destruct I as [I|I].
  - assert (n < N + 1)%Z by (apply lt_IZR; rewrite plus_IZR; lra). assert (N - 2 < n)%Z by (apply lt_IZR; rewrite minus_IZR; lra). lia.
  - assert (N - 1 < n)%Z by (apply lt_IZR; rewrite minus_IZR; lra).
    assert (n < N + 1)%Z; [|lia]. apply lt_IZR. rewrite plus_IZR. 
    destruct (Rlt_or_le (IZR n) (IZR N + 1)) as [L|L]; [assumption|]. exfalso. assert (half_ulp <= / 8) by nra.
    assert ((IZR N + 1) * (1 - half_ulp) <= IZR n * (1 - half_ulp)) by (apply Rmult_le_compat_r; lra). nra.
Qed.
Lemma quotient_near A k n r : (0 < A)%Z -> (0 < k)%Z -> (0 < n)%Z -> 0 < r -> Rabs (r * IZR n - IZR A) <= half_ulp * IZR A ->
  Rabs (IZR (A * k) / r - IZR (n * k)) <= 4 * half_ulp * IZR (n * k).
Proof.
  intros HA Hk Hn P E. rewrite !mult_IZR. assert (A1 : 1 <= IZR A) by (apply IZR_le; lia). assert (N1 : 1 <= IZR n) by (apply IZR_le; lia). assert (K1 : 1 <= IZR k) by (apply IZR_le; lia).
  set (a := IZR A) in *. set (m := IZR n) in *. set (l := IZR k) in *. clearbody a m l. apply Rabs_le_inv in E. pose proof half_ulp_bounds as [U0 _].
  assert (U1 : half_ulp <= / 2). { pose proof half_ulp_2_52. assert (1 <= IZR (2 ^ 52)) by (apply IZR_le; lia). nra. }
  set (p := a / r). assert (Ep : p * r = a) by (unfold p; field; lra). replace (a * l / r) with (p * l) by (unfold p; field; lra).
  assert (P0 : 0 < p) by (apply Rdiv_lt_0_compat; lra).
  assert (M1 : m - p <= half_ulp * p). { apply Rmult_le_reg_r with r; [assumption|]. nra. }
  assert (M2 : p - m <= half_ulp * p). { apply Rmult_le_reg_r with r; [assumption|]. nra. }
  assert (P2 : p <= 2 * m) by nra.
  assert (L : Rabs (p - m) <= 4 * half_ulp * m) by (apply Rabs_le; split; nra).
  replace (p * l - m * l) with ((p - m) * l) by ring. rewrite Rabs_mult, (Rabs_pos_eq l) by lra. nra.
Qed.
Lemma int_part_exact n N : (0 < N < 2 ^ 52)%Z -> integer_part_up_to_rounding (IZR N) n -> n = N.
Proof.
  intros HN [I|I].
  - assert (n <= N)%Z by (apply le_IZR; lra). assert (N < n + 1)%Z by (apply lt_IZR; rewrite plus_IZR; lra). lia.
  - exfalso. assert (L : (N + 1 <= n)%Z) by (enough (N < n)%Z by lia; apply lt_IZR; lra). apply IZR_le in L. rewrite plus_IZR in L.
    pose proof half_ulp_2_52. pose proof half_ulp_bounds as [U0 _]. assert (NM : IZR N < IZR (2 ^ 52)) by (apply IZR_lt; lia). assert (N1 : 1 <= IZR N) by (apply IZR_le; lia).
    assert (half_ulp <= / 2). { assert (1 <= IZR (2 ^ 52)) by (apply IZR_le; lia). nra. }
    assert ((IZR N + 1) * (1 - half_ulp) <= IZR n * (1 - half_ulp)) by (apply Rmult_le_compat_r; lra). nra.
Qed.
Lemma int_of_quotient A k n : (0 < A)%Z -> (0 < k)%Z -> (A * k <= 2 ^ 53)%Z -> (0 < n)%Z -> (n * k <= 2 ^ 50)%Z ->
  exists N, b64_int (b64_div (b64_of_Z (A * k)) (b64_div (b64_of_Z A) (b64_of_Z n))) = Some N /\ (N = n * k \/ N = n * k - 1)%Z.
Proof.
  intros HA Hk HAk Hn Hnk. destruct (quotient_double A n) as (D & P & E); [nia|nia|]. set (r := b64_div _ (b64_of_Z n)) in *.
  pose proof (quotient_near A k n _ HA Hk Hn P E) as Q.
  destruct (int_quotient (A * k) r) as (N & EN & IN); [nia|assumption|assumption| |].
  - apply Rabs_le_inv in Q. assert (NM : IZR (n * k) <= IZR (2 ^ 50)) by now apply IZR_le.
    assert (N1 : 1 <= IZR (n * k)) by (apply IZR_le; nia).
    pose proof half_ulp_2_52 as U. change (2 ^ 52)%Z with (2 ^ 50 * 4)%Z in *. rewrite (mult_IZR (2 ^ 50)) in *. pose proof half_ulp_bounds.
    assert (half_ulp * IZR (n * k) <= half_ulp * IZR (2 ^ 50)) by (apply Rmult_le_compat_l; lra). lra.
  - exists N. split; [assumption|]. apply (int_part_near _ N (n * k)) in Q; [assumption|nia|assumption].
Qed.
