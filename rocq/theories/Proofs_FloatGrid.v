(** Coordinates in double precision. *)
From Coq Require Import Reals ZArith Lia Lra List.
From Flocq Require Import Core Relative.
From Verif Require Import Base Model_Grid Model_Float Model_FloatGrid Spec_Float Spec_FloatGrid Spec_Region Proofs_Base Proofs_Float Proofs_FloatRun Model_Region.
From Flocq Require Import BinarySingleNaN.
Import ListNotations.
Open Scope R_scope.

Lemma mul_equiv (x y : bf) : b64_mul (B2SF x) (B2SF y) = B2SF (Bmult mode_NE x y).
Proof.
  unfold b64_mul, b64_prec, b64_emax.
  case x as [sx|sx| |sx mx ex Bx]; case y as [sy|sy| |sy my ey By]; [now (trivial || simpl; case Bool.eqb)..|].
  simpl. rewrite B2SF_SF2B. apply round_aux_equiv.
Qed.
Lemma rnd_max q : Rabs q <= IZR (2 ^ 53) -> Rabs (rnd q) < bpow radix2 1024.
Proof.
  intros H. apply Rle_lt_trans with (IZR (2 ^ 53)).
  - apply abs_round_le_generic; [apply fexp_correct; exact Hprec|apply valid_rnd_round_mode|apply int_format; lia|assumption].
  - change (IZR (2 ^ 53)) with (bpow radix2 53). now apply bpow_lt.
Qed.
(** the error of one rounding *)
Lemma rnd_err q : Rabs (rnd q - q) <= half_ulp * Rabs q + / 2 ^ 100.
Proof.
  destruct (error_N_FLT radix2 (3 - 1024 - 53) 53 Hprec (fun n => negb (Z.even n)) q) as (eps & eta & He & Ht & _ & E).
  change (round radix2 (FLT_exp (3 - 1024 - 53) 53) (Znearest (fun n => negb (Z.even n))) q) with (rnd q) in E. rewrite E.
  replace (q * (1 + eps) + eta - q) with (q * eps + eta) by ring.
  eapply Rle_trans; [apply Rabs_triang|]. rewrite Rabs_mult. rewrite (Rmult_comm (Rabs q)). apply Rplus_le_compat.
  - apply Rmult_le_compat_r; [apply Rabs_pos|]. rewrite half_ulp_bpow. exact He.
  - eapply Rle_trans; [exact Ht|]. apply Rle_trans with (bpow radix2 (-100)); [|cbn; lra].
    assert (bpow radix2 (3 - 1024 - 53) <= bpow radix2 (-100)) by (apply bpow_le; lia). pose proof (bpow_gt_0 radix2 (3 - 1024 - 53)). lra.
Qed.
Lemma rnd_exact x r : denotes x r -> rnd r = r.
Proof.
  intros H. apply denotes_B in H. destruct H as (b & _ & _ & <-). apply round_generic; [apply valid_rnd_round_mode|]. apply generic_format_B2R.
Qed.
Lemma rnd_scaled z e : (Z.abs z <= 2 ^ 53)%Z -> (-1074 <= e)%Z -> rnd (scaled e z) = scaled e z.
Proof. intros H He. rewrite scaled_bpow. apply round_generic; [apply valid_rnd_round_mode|]. now apply scaled_format. Qed.

Lemma denotes_of_Z z : (Z.abs z <= 2 ^ 53)%Z -> denotes (b64_of_Z z) (IZR z).
Proof. intros H. apply denotes_B. destruct (of_Z_value z H) as (b & E & V & F). now exists b. Qed.
Lemma denotes_mul_rnd x y a b : denotes x a -> denotes y b -> Rabs (a * b) <= IZR (2 ^ 53) -> denotes (b64_mul x y) (rnd (a * b)).
Proof.
  intros Hx Hy H. apply denotes_B in Hx, Hy. destruct Hx as (bx & -> & Fx & <-), Hy as (by_ & -> & Fy & <-).
  rewrite mul_equiv. apply denotes_B. eexists. split; [reflexivity|].
  pose proof (Bmult_correct 53 1024 Hprec Hmax mode_NE bx by_) as C. rewrite Rlt_bool_true in C by now apply rnd_max.
  destruct C as (C1 & C2 & _). now rewrite C1, C2, Fx, Fy.
Qed.
Lemma denotes_add_rnd x y a b : denotes x a -> denotes y b -> Rabs (a + b) <= IZR (2 ^ 53) -> denotes (b64_add x y) (rnd (a + b)).
Proof.
  intros Hx Hy H. apply denotes_B in Hx, Hy. destruct Hx as (bx & -> & Fx & <-), Hy as (by_ & -> & Fy & <-).
  rewrite add_equiv. apply denotes_B. eexists. split; [reflexivity|].
  pose proof (Bplus_correct 53 1024 Hprec Hmax mode_NE bx by_ Fx Fy) as C. rewrite Rlt_bool_true in C by now apply rnd_max. tauto.
Qed.
Lemma denotes_sub_rnd x y a b : denotes x a -> denotes y b -> Rabs (a - b) <= IZR (2 ^ 53) -> denotes (b64_sub x y) (rnd (a - b)).
Proof.
  intros Hx Hy H. apply denotes_B in Hx, Hy. destruct Hx as (bx & -> & Fx & <-), Hy as (by_ & -> & Fy & <-).
  rewrite sub_equiv. apply denotes_B. eexists. split; [reflexivity|].
  pose proof (Bminus_correct 53 1024 Hprec Hmax mode_NE bx by_ Fx Fy) as C. rewrite Rlt_bool_true in C by now apply rnd_max. tauto.
Qed.
Lemma denotes_div_rnd x y a b : denotes x a -> denotes y b -> b <> 0 -> Rabs (a / b) <= IZR (2 ^ 53) -> denotes (b64_div x y) (rnd (a / b)).
Proof.
  intros Hx Hy N H. apply denotes_B in Hx, Hy. destruct Hx as (bx & -> & Fx & <-), Hy as (by_ & -> & Fy & <-).
  unfold b64_div, b64_prec, b64_emax. rewrite div_equiv. apply denotes_B. eexists. split; [reflexivity|].
  pose proof (Bdiv_correct 53 1024 Hprec Hmax mode_NE bx by_ N) as C. rewrite Rlt_bool_true in C by now apply rnd_max.
  destruct C as (C1 & C2 & _). now rewrite C1, C2, Fx.
Qed.

(** ** The rounded coordinates *)
Definition fl_step (delta : R) (n : nat) : R := rnd (delta / INR n).
Definition fl_at (start s : R) (i : nat) : R := rnd (rnd (INR i * s) + start).
Definition fl_lat (n i : nat) : R := if Nat.eqb i n then -90 else fl_at 90 (fl_step (-180) n) i.
Definition fl_lon (n j : nat) : R := fl_at 0 (fl_step 360 n) j.

Lemma p53 : IZR (2 ^ 53) = 9007199254740992. Proof. reflexivity. Qed.
Lemma hu : half_ulp = / 9007199254740992.
Proof. unfold half_ulp. rewrite (pow_IZR 2 53). reflexivity. Qed.
Lemma tiny : 0 < / 2 ^ 100 <= / 1267650600228229401496703205376.
Proof. rewrite (pow_IZR 2 100). change (2 ^ Z.of_nat 100)%Z with 1267650600228229401496703205376%Z. lra. Qed.
Lemma nat_small n : (Z.of_nat n <= 2 ^ 40)%Z -> INR n <= 1099511627776.
Proof. intros H. rewrite INR_IZR_INZ. apply IZR_le. exact H. Qed.

(** the size of rounding errors *)
Lemma step_error D n : (1 <= n)%nat -> 0 <= D <= 360 -> forall sg, sg = 1 \/ sg = -1 ->
  Rabs (fl_step (sg * D) n - sg * D / INR n) <= half_ulp * (D / INR n) + / 2 ^ 100.
Proof.
  intros Hn HD sg Hs. unfold fl_step. assert (N1 : 1 <= INR n) by (apply (le_INR 1); lia).
  eapply Rle_trans; [apply rnd_err|]. apply Rplus_le_compat_r. right. f_equal.
  assert (0 <= D / INR n) by (apply Rmult_le_pos; [lra|left; apply Rinv_0_lt_compat; lra]).
  destruct Hs as [-> | ->].
  - rewrite Rmult_1_l. now apply Rabs_pos_eq.
  - replace (-1 * D / INR n) with (- (D / INR n)) by (field; lra). rewrite Rabs_Ropp. now apply Rabs_pos_eq.
Qed.
Lemma scaled_error D n i s : (1 <= n)%nat -> (Z.of_nat n <= 2 ^ 40)%Z -> (i <= n)%nat -> 0 <= D <= 360 -> forall sg, sg = 1 \/ sg = -1 -> s = fl_step (sg * D) n ->
  Rabs (INR i * s - sg * (D * INR i / INR n)) <= half_ulp * D + / 2 ^ 55 /\ Rabs (rnd (INR i * s) - sg * (D * INR i / INR n)) <= 2 * half_ulp * D + / 2 ^ 54.
Proof.
  intros Hn Hb Hi HD sg Hs ->. assert (N1 : 1 <= INR n) by (apply (le_INR 1); lia). pose proof (nat_small n Hb) as NB.
  assert (I0 : 0 <= INR i) by apply pos_INR. assert (IN : INR i <= INR n) by (apply le_INR; lia).
  pose proof (step_error D n Hn HD sg Hs) as E. set (s := fl_step (sg * D) n) in *. clearbody s.
  set (q := D / INR n) in *. assert (Eq : q * INR n = D) by (unfold q; field; lra).
  assert (Q0 : 0 <= q) by (unfold q; apply Rmult_le_pos; [lra|left; apply Rinv_0_lt_compat; lra]).
  replace (sg * D / INR n) with (sg * q) in E by (unfold q; field; lra). replace (D * INR i / INR n) with (INR i * q) by (unfold q; field; lra).
  pose proof tiny as [T0 T1]. pose proof (rnd_err (INR i * s)) as E2. set (t := / 2 ^ 100) in *. clearbody t q.
  assert (P55 : / 2 ^ 55 = / 36028797018963968) by (rewrite (pow_IZR 2 55); reflexivity).
  assert (P54 : / 2 ^ 54 = / 18014398509481984) by (rewrite (pow_IZR 2 54); reflexivity). rewrite P54, P55. rewrite hu in *.
  assert (IQ : INR i * q <= D) by nra.
  assert (E1 : Rabs (INR i * s - sg * (INR i * q)) <= / 9007199254740992 * (INR i * q) + INR i * t).
  { replace (INR i * s - sg * (INR i * q)) with (INR i * (s - sg * q)) by ring. rewrite Rabs_mult, (Rabs_pos_eq (INR i)) by assumption. nra. }
  assert (IT : INR i * t <= 1099511627776 * / 1267650600228229401496703205376) by (apply Rmult_le_compat; lra).
  assert (A : Rabs (INR i * s) <= D + 1).
  { replace (INR i * s) with ((INR i * s - sg * (INR i * q)) + sg * (INR i * q)) by ring. eapply Rle_trans; [apply Rabs_triang|].
    assert (Rabs (sg * (INR i * q)) <= D). { rewrite Rabs_mult. assert (Rabs sg = 1) as -> by (destruct Hs as [-> | ->]; [apply Rabs_R1|rewrite Rabs_left by lra; lra]). rewrite Rabs_pos_eq by nra. lra. }
    lra. }
  split; [lra|].
  replace (rnd (INR i * s) - sg * (INR i * q)) with ((rnd (INR i * s) - INR i * s) + (INR i * s - sg * (INR i * q))) by ring.
  eapply Rle_trans; [apply Rabs_triang|].
  assert (E3 : Rabs (INR i * s) <= D + / 9007199254740992 * D + 1099511627776 * / 1267650600228229401496703205376).
  { replace (INR i * s) with ((INR i * s - sg * (INR i * q)) + sg * (INR i * q)) by ring. eapply Rle_trans; [apply Rabs_triang|].
    assert (Rabs (sg * (INR i * q)) <= D). { rewrite Rabs_mult. assert (Rabs sg = 1) as -> by (destruct Hs as [-> | ->]; [apply Rabs_R1|rewrite Rabs_left by lra; lra]). rewrite Rabs_pos_eq by nra. lra. }
    lra. }
  lra.
Qed.

Lemma lat_error n i : (1 <= n)%nat -> (Z.of_nat n <= 2 ^ 40)%Z -> (i <= n)%nat -> Rabs (fl_lat n i - latitude n i) <= / 2 ^ 44.
Proof.
  intros Hn Hb Hi. assert (N1 : 1 <= INR n) by (apply (le_INR 1); lia). unfold fl_lat, latitude.
  assert (P44 : / 2 ^ 44 = / 17592186044416) by (rewrite (pow_IZR 2 44); reflexivity).
  destruct (Nat.eqb_spec i n) as [->|Ne].
  - replace (-90 - (90 - 180 * INR n / INR n)) with 0 by (field; lra). rewrite Rabs_R0, P44. lra.
  - destruct (scaled_error 180 n i (fl_step (-180) n) Hn Hb Hi ltac:(lra) (-1) (or_intror eq_refl)) as [_ E]; [f_equal; lra|].
    unfold fl_at. set (p := rnd (INR i * fl_step (-180) n)) in *. set (d := 180 * INR i / INR n) in *.
    assert (D : 0 <= d <= 180).
    { assert (INR i <= INR n) by (apply le_INR; lia). pose proof (pos_INR i). unfold d. split; [apply Rmult_le_pos; [lra|left; apply Rinv_0_lt_compat; lra]|].
      apply Rmult_le_reg_r with (INR n); [lra|]. unfold Rdiv. rewrite Rmult_assoc, Rinv_l by lra. lra. }
    pose proof (rnd_err (p + 90)) as E2. pose proof tiny as [T0 T1]. set (t := / 2 ^ 100) in *. clearbody t. rewrite hu in *. rewrite P44.
    assert (P54 : / 2 ^ 54 = / 18014398509481984) by (rewrite (pow_IZR 2 54); reflexivity). rewrite P54 in E.
    assert (A : Rabs (p + 90) <= 91). { apply Rabs_le_inv in E. apply Rabs_le. lra. }
    apply Rabs_le_inv in E. replace (rnd (p + 90) - (90 - d)) with ((rnd (p + 90) - (p + 90)) + (p + d)) by ring.
    eapply Rle_trans; [apply Rabs_triang|]. assert (Rabs (p + d) <= 2 * / 9007199254740992 * 180 + / 18014398509481984) by (apply Rabs_le; lra). lra.
Qed.
Lemma rnd_rnd q : rnd (rnd q) = rnd q.
Proof. apply round_generic; [apply valid_rnd_round_mode|]. apply generic_format_round; [apply fexp_correct; exact Hprec|apply valid_rnd_round_mode]. Qed.
Lemma rnd_0 : rnd 0 = 0.
Proof. apply round_0. apply valid_rnd_round_mode. Qed.
Lemma lon_error n j : (1 <= n)%nat -> (Z.of_nat n <= 2 ^ 40)%Z -> (j <= n)%nat -> Rabs (fl_lon n j - longitude n j) <= / 2 ^ 43.
Proof.
  intros Hn Hb Hi. unfold fl_lon, longitude, fl_at. rewrite Rplus_0_r, rnd_rnd.
  destruct (scaled_error 360 n j (fl_step 360 n) Hn Hb Hi ltac:(lra) 1 (or_introl eq_refl)) as [_ E]; [f_equal; lra|].
  rewrite Rmult_1_l in E. eapply Rle_trans; [exact E|]. rewrite hu.
  assert (P54 : / 2 ^ 54 = / 18014398509481984) by (rewrite (pow_IZR 2 54); reflexivity).
  assert (P43 : / 2 ^ 43 = / 8796093022208) by (rewrite (pow_IZR 2 43); reflexivity). rewrite P54, P43. lra.
Qed.
Lemma lat_first n : (1 <= n)%nat -> fl_lat n 0 = 90.
Proof.
  intros Hn. unfold fl_lat. destruct (Nat.eqb_spec 0 n); [lia|]. unfold fl_at. cbn [INR]. rewrite Rmult_0_l, rnd_0, Rplus_0_l.
  apply (rnd_exact (b64_of_Z 90)). apply denotes_of_Z. lia.
Qed.
Lemma lon_first n : fl_lon n 0 = 0.
Proof. unfold fl_lon, fl_at. cbn [INR]. now rewrite Rmult_0_l, rnd_0, Rplus_0_l, rnd_0. Qed.
Lemma lat_last n : fl_lat n n = -90.
Proof. unfold fl_lat. now rewrite Nat.eqb_refl. Qed.

Lemma inv_40 n : (1 <= n)%nat -> (Z.of_nat n <= 2 ^ 40)%Z -> / 1099511627776 <= / INR n.
Proof. intros Hn Hb. assert (N1 : 1 <= INR n) by (apply (le_INR 1); lia). apply Rinv_le_contravar; [lra|]. now apply nat_small. Qed.
Lemma lat_decr n i j : (1 <= n)%nat -> (Z.of_nat n <= 2 ^ 40)%Z -> (i < j <= n)%nat -> fl_lat n j < fl_lat n i.
Proof.
  intros Hn Hb Hij. pose proof (lat_error n i Hn Hb ltac:(lia)) as Ei. pose proof (lat_error n j Hn Hb ltac:(lia)) as Ej.
  assert (P44 : / 2 ^ 44 = / 17592186044416) by (rewrite (pow_IZR 2 44); reflexivity). rewrite P44 in *. apply Rabs_le_inv in Ei, Ej.
  pose proof (inv_40 n Hn Hb) as V. unfold latitude, Rdiv in *. assert (D : 1 <= INR j - INR i) by (rewrite <- minus_INR by lia; apply (le_INR 1); lia).
  assert (180 * INR j * / INR n - 180 * INR i * / INR n >= 180 * / 1099511627776) by nra. lra.
Qed.
Lemma lon_incr n i j : (1 <= n)%nat -> (Z.of_nat n <= 2 ^ 40)%Z -> (i < j <= n)%nat -> fl_lon n i < fl_lon n j.
Proof.
  intros Hn Hb Hij. pose proof (lon_error n i Hn Hb ltac:(lia)) as Ei. pose proof (lon_error n j Hn Hb ltac:(lia)) as Ej.
  assert (P43 : / 2 ^ 43 = / 8796093022208) by (rewrite (pow_IZR 2 43); reflexivity). rewrite P43 in *. apply Rabs_le_inv in Ei, Ej.
  pose proof (inv_40 n Hn Hb) as V. unfold longitude, Rdiv in *. assert (D : 1 <= INR j - INR i) by (rewrite <- minus_INR by lia; apply (le_INR 1); lia).
  assert (360 * INR j * / INR n - 360 * INR i * / INR n >= 360 * / 1099511627776) by nra. lra.
Qed.
Lemma lon_360 n j : (Z.of_nat n <= 2 ^ 40)%Z -> (j < n)%nat -> fl_lon n j < 360.
Proof.
  intros Hb Hj. pose proof (lon_error n j ltac:(lia) Hb ltac:(lia)) as Ej.
  assert (P43 : / 2 ^ 43 = / 8796093022208) by (rewrite (pow_IZR 2 43); reflexivity). rewrite P43 in *. apply Rabs_le_inv in Ej.
  pose proof (inv_40 n ltac:(lia) Hb) as V. unfold longitude, Rdiv in *. assert (D : 1 <= INR n - INR j) by (rewrite <- minus_INR by lia; apply (le_INR 1); lia).
  assert (N1 : 1 <= INR n) by (apply (le_INR 1); lia). assert (E : 360 * INR n * / INR n = 360) by (field; lra).
  assert (360 * INR n * / INR n - 360 * INR j * / INR n >= 360 * / 1099511627776) by nra. lra.
Qed.

(** the model computes these *)
Lemma Forall2_map_seq {A B} (P : A -> B -> Prop) f g n : (forall i, (i < n)%nat -> P (f i) (g i)) -> Forall2 P (map f (seq 0 n)) (tab n g).
Proof.
  intros H. unfold tab. assert (G : forall l, (forall i, In i l -> P (f i) (g i)) -> Forall2 P (map f l) (map g l)).
  { induction l as [|a l IH]; intros K; constructor; [apply K; now left|apply IH; intros; apply K; now right]. }
  apply G. intros i Hi. apply in_seq in Hi. apply H. lia.
Qed.
Lemma denotes_index i : (Z.of_nat i <= 2 ^ 40)%Z -> denotes (b64_of_Z (Z.of_nat i)) (INR i).
Proof. intros H. rewrite INR_IZR_INZ. apply denotes_of_Z. lia. Qed.
Lemma lat_denotes n : (1 <= n)%nat -> (Z.of_nat n <= 2 ^ 40)%Z -> denote (lat_b64 (S n)) (tab (S n) (fl_lat n)).
Proof.
  intros Hn Hb. unfold lat_b64, linspace_b64, denote. cbv zeta. replace (S n - 1)%nat with n by lia.
  destruct (Nat.eqb_spec n 0); [lia|]. assert (Nat.ltb 1 (S n) = true) as -> by (apply Nat.ltb_lt; lia).
  assert (N1 : 1 <= INR n) by (apply (le_INR 1); lia). apply Forall2_map_seq. intros i Hi. unfold fl_lat. cbn [andb].
  destruct (Nat.eqb_spec i n) as [->|Ne]; [apply (denotes_of_Z (-90)); lia|].
  assert (X : denotes (b64_sub (b64_of_Z (-90)) (b64_of_Z 90)) (-180)).
  { replace (-180) with (rnd (-90 - 90)).
    - apply denotes_sub_rnd; try (apply denotes_of_Z; lia). rewrite p53. apply Rabs_le. lra.
    - replace (-90 - 90) with (-180) by lra. apply (rnd_exact (b64_of_Z (-180))), denotes_of_Z. lia. }
  assert (V : 0 < / INR n <= 1) by (split; [apply Rinv_0_lt_compat; lra|rewrite <- Rinv_1; apply Rinv_le_contravar; lra]).
  assert (Y : denotes (b64_div (b64_sub (b64_of_Z (-90)) (b64_of_Z 90)) (b64_of_Z (Z.of_nat n))) (fl_step (-180) n)).
  { apply denotes_div_rnd; [exact X|now apply denotes_index|lra|]. rewrite p53. unfold Rdiv. apply Rabs_le. nra. }
  assert (B1 : Rabs (INR i * fl_step (-180) n) <= 181).
  { destruct (scaled_error 180 n i (fl_step (-180) n) Hn Hb ltac:(lia) ltac:(lra) (-1) (or_intror eq_refl)) as [E _]; [f_equal; lra|].
    pose proof (pos_INR i). assert (INR i <= INR n) by (apply le_INR; lia). assert (I1 : 0 <= INR i * / INR n <= 1).
    { split; [nra|]. apply Rmult_le_reg_r with (INR n); [lra|]. rewrite Rmult_assoc, Rinv_l by lra. lra. }
    unfold Rdiv in E. rewrite (Rmult_assoc 180) in E. rewrite hu in E. assert (P55 : / 2 ^ 55 = / 36028797018963968) by (rewrite (pow_IZR 2 55); reflexivity). rewrite P55 in E.
    apply Rabs_le_inv in E. apply Rabs_le. lra. }
  unfold fl_at. apply denotes_add_rnd; [|apply denotes_of_Z; lia|].
  - apply denotes_mul_rnd; [apply denotes_index; lia|exact Y|]. rewrite p53. lra.
  - rewrite p53. pose proof (rnd_err (INR i * fl_step (-180) n)) as E. pose proof tiny. rewrite hu in E. apply Rabs_le_inv in E. apply Rabs_le_inv in B1 as B2. apply Rabs_le. lra.
Qed.
Lemma lon_denotes n : (1 <= n)%nat -> (Z.of_nat n <= 2 ^ 40)%Z -> denote (lon_b64 n) (tab n (fl_lon n)).
Proof.
  intros Hn Hb. unfold lon_b64, linspace_b64, denote. cbv zeta. 
  destruct (Nat.eqb_spec n 0); [lia|].
  assert (N1 : 1 <= INR n) by (apply (le_INR 1); lia). apply Forall2_map_seq. intros i Hi. unfold fl_lon. cbn [andb].
  assert (X : denotes (b64_sub (b64_of_Z 360) (b64_of_Z 0)) 360).
  { replace 360 with (rnd (360 - 0)).
    - apply denotes_sub_rnd; try (apply denotes_of_Z; lia). rewrite p53. apply Rabs_le. lra.
    - replace (360 - 0) with 360 by lra. apply (rnd_exact (b64_of_Z 360)), denotes_of_Z. lia. }
  assert (V : 0 < / INR n <= 1) by (split; [apply Rinv_0_lt_compat; lra|rewrite <- Rinv_1; apply Rinv_le_contravar; lra]).
  assert (Y : denotes (b64_div (b64_sub (b64_of_Z 360) (b64_of_Z 0)) (b64_of_Z (Z.of_nat n))) (fl_step 360 n)).
  { apply denotes_div_rnd; [exact X|now apply denotes_index|lra|]. rewrite p53. unfold Rdiv. apply Rabs_le. nra. }
  assert (B1 : Rabs (INR i * fl_step 360 n) <= 361).
  { destruct (scaled_error 360 n i (fl_step 360 n) Hn Hb ltac:(lia) ltac:(lra) 1 (or_introl eq_refl)) as [E _]; [f_equal; lra|].
    pose proof (pos_INR i). assert (INR i <= INR n) by (apply le_INR; lia). assert (I1 : 0 <= INR i * / INR n <= 1).
    { split; [nra|]. apply Rmult_le_reg_r with (INR n); [lra|]. rewrite Rmult_assoc, Rinv_l by lra. lra. }
    unfold Rdiv in E. rewrite (Rmult_assoc 360) in E. rewrite hu in E. assert (P55 : / 2 ^ 55 = / 36028797018963968) by (rewrite (pow_IZR 2 55); reflexivity). rewrite P55 in E.
    apply Rabs_le_inv in E. apply Rabs_le. lra. }
  unfold fl_at. apply denotes_add_rnd; [|apply denotes_of_Z; lia|].
  - apply denotes_mul_rnd; [apply denotes_index; lia|exact Y|]. rewrite p53. lra.
  - rewrite p53. pose proof (rnd_err (INR i * fl_step 360 n)) as E. pose proof tiny. rewrite hu in E. apply Rabs_le_inv in E. apply Rabs_le_inv in B1 as B2. apply Rabs_le. lra.
Qed.

(** ** Exact coordinates *)
Lemma scaled_pow k z : (0 <= k)%Z -> scaled (- k) (z * 2 ^ k) = IZR z.
Proof.
  intros Hk. rewrite scaled_bpow, mult_IZR. change (2 ^ k)%Z with (radix_val radix2 ^ k)%Z. rewrite IZR_Zpower by assumption.
  rewrite Rmult_assoc, <- bpow_plus. replace (k + - k)%Z with 0%Z by lia. cbn. ring.
Qed.
Lemma scaled_mul e a b : IZR a * scaled e b = scaled e (a * b).
Proof. unfold scaled. rewrite mult_IZR. ring. Qed.
Lemma scaled_add e a b : scaled e a + scaled e b = scaled e (a + b).
Proof. unfold scaled. rewrite plus_IZR. ring. Qed.
Lemma at_exact c A k n i q : (0 <= k <= 45)%Z -> (1 <= n)%nat -> (i <= n)%nat -> (A * 2 ^ k = q * Z.of_nat n)%Z -> (Z.abs A * 2 ^ k <= 2 ^ 53)%Z -> (Z.abs c * 2 ^ k <= 2 ^ 53)%Z ->
  (forall z, (0 <= z <= Z.of_nat n)%Z -> (Z.abs (z * q + c * 2 ^ k) <= 2 ^ 53)%Z) ->
  fl_at (IZR c) (fl_step (IZR A) n) i = IZR c + IZR A * INR i / INR n.
Proof.
  intros Hk Hn Hi E BA Bc BS. unfold fl_at, fl_step. assert (N1 : 1 <= INR n) by (apply (le_INR 1); lia).
  assert (S0 : IZR A / INR n = scaled (- k) q).
  { rewrite <- (scaled_pow k A) by lia. rewrite E. rewrite Z.mul_comm, <- scaled_mul, <- INR_IZR_INZ. field. lra. }
  rewrite S0.
  assert (Bq : forall z, (0 <= z <= Z.of_nat n)%Z -> (Z.abs (z * q) <= 2 ^ 53)%Z).
  { intros z Hz. rewrite Z.abs_mul, (Z.abs_eq z) by lia. assert (Z.abs A * 2 ^ k = Z.abs q * Z.of_nat n)%Z as F.
    { apply (f_equal Z.abs) in E. rewrite !Z.abs_mul in E. rewrite (Z.abs_eq (2 ^ k)) in E by lia. rewrite (Z.abs_eq (Z.of_nat n)) in E by lia. exact E. }
    assert (z * Z.abs q <= Z.of_nat n * Z.abs q)%Z by (apply Z.mul_le_mono_nonneg_r; lia). lia. }
  rewrite rnd_scaled; [|specialize (Bq 1%Z ltac:(lia)); now rewrite Z.mul_1_l in Bq|lia].
  rewrite INR_IZR_INZ, scaled_mul. rewrite rnd_scaled; [|apply Bq; lia|lia].
  rewrite <- (scaled_pow k c) at 1 by lia. rewrite scaled_add. rewrite rnd_scaled; [|apply BS; lia|lia].
  rewrite <- scaled_add, scaled_pow, <- scaled_mul, <- S0 by lia. rewrite <- INR_IZR_INZ. field. lra.
Qed.
Lemma lat_exact n k i : (1 <= n)%nat -> (0 <= k <= 45)%Z -> (Z.of_nat n | 180 * 2 ^ k)%Z -> (i <= n)%nat -> fl_lat n i = latitude n i.
Proof.
  intros Hn Hk [q Hq] Hi. assert (N1 : 1 <= INR n) by (apply (le_INR 1); lia). unfold fl_lat, latitude. destruct (Nat.eqb_spec i n) as [->|Ne]; [field; lra|].
  assert (P : (0 < 2 ^ k <= 2 ^ 45)%Z) by (split; [lia|apply Z.pow_le_mono_r; lia]).
  rewrite (at_exact 90 (-180) k n i (- q)); try lia; try (field; lra).
  intros z Hz. assert (0 < q)%Z by nia. assert (0 <= z * q <= 180 * 2 ^ k)%Z by nia. lia.
Qed.
Lemma lon_exact n k j : (1 <= n)%nat -> (0 <= k <= 44)%Z -> (Z.of_nat n | 360 * 2 ^ k)%Z -> (j <= n)%nat -> fl_lon n j = longitude n j.
Proof.
  intros Hn Hk [q Hq] Hi. assert (N1 : 1 <= INR n) by (apply (le_INR 1); lia). unfold fl_lon, longitude.
  assert (P : (0 < 2 ^ k <= 2 ^ 44)%Z) by (split; [lia|apply Z.pow_le_mono_r; lia]).
  rewrite (at_exact 0 360 k n j q); try lia; try (field; lra).
  intros z Hz. assert (0 < q)%Z by nia. assert (0 <= z * q <= 360 * 2 ^ k)%Z by nia. lia.
Qed.

(** ** Selections *)
Lemma denote_length (l : list b64) r : denote l r -> length l = length r.
Proof. intros H. induction H; cbn; congruence. Qed.
Lemma pick_same l r p' p : denote l r -> (forall x v, denotes x v -> p' x = p v) -> pick_b64 l p' = pick r p.
Proof.
  intros H E. unfold pick_b64, pick. rewrite (denote_length _ _ H). apply filter_ext_in. intros i Hi. apply in_seq in Hi. apply E.
  assert (G : forall l r, denote l r -> forall i, (i < length r)%nat -> denotes (nth i l S754_nan) (nth i r 0)).
  { clear. intros l r H. induction H as [|x v l r Hx H IH]; intros i Hi; [cbn in Hi; lia|]. destruct i; [exact Hx|]. apply IH. cbn in Hi. lia. }
  apply G; [assumption|lia].
Qed.
Lemma denotes_min x y a b : denotes x a -> denotes y b -> denotes (py_min_b64 x y) (Rmin a b).
Proof.
  intros Hx Hy. unfold py_min_b64. rewrite (denotes_lt _ _ _ _ Hy Hx). destruct (Rltb b a) eqn:E.
  - apply Rltb_true in E. now rewrite Rmin_right by lra.
  - apply Rltb_false in E. now rewrite Rmin_left by lra.
Qed.
Lemma denotes_max x y a b : denotes x a -> denotes y b -> denotes (py_max_b64 x y) (Rmax a b).
Proof.
  intros Hx Hy. unfold py_max_b64. rewrite (denotes_lt _ _ _ _ Hx Hy). destruct (Rltb a b) eqn:E.
  - apply Rltb_true in E. now rewrite Rmax_right by lra.
  - apply Rltb_false in E. now rewrite Rmax_left by lra.
Qed.
Definition lat_sel (r : vec) (lo hi : option R) : list nat :=
  match lo, hi with
  | None, None => seq 0 (length r)
  | None, Some h => pick r (fun y => Rleb y h)
  | Some l, None => pick r (fun y => Rleb l y)
  | Some l, Some h => pick r (fun y => Rleb (Rmin l h) y && Rleb y (Rmax l h))
  end.
Definition lon_sel (r : vec) (lo hi : option R) : list nat :=
  match lo, hi with
  | None, None => seq 0 (length r)
  | None, Some h => pick r (fun x => Rleb x h)
  | Some l, None => pick r (fun x => Rleb l x)
  | Some l, Some h =>
      if Rltb h l then roll (pick r (fun x => Rleb x h || Rleb l x)) (length (pick r (fun x => Rleb l x)))
      else pick r (fun x => Rleb l x && Rleb x h)
  end.
Lemma lat_range_same c r lo hi l h : denote c r -> denotes_bound lo l -> denotes_bound hi h -> lat_range_b64 c lo hi = lat_sel r l h.
Proof.
  intros H Hl Hh. unfold lat_range_b64, lat_sel. destruct lo as [x|], l as [a|]; try contradiction; destruct hi as [y|], h as [b|]; try contradiction; cbn in Hl, Hh.
  - apply pick_same; [assumption|]. intros z v Hz. f_equal; apply denotes_le; auto using denotes_min, denotes_max.
  - apply pick_same; [assumption|]. intros z v Hz. now apply denotes_le.
  - apply pick_same; [assumption|]. intros z v Hz. now apply denotes_le.
  - now rewrite (denote_length _ _ H).
Qed.
Lemma lon_range_same c r lo hi l h : denote c r -> denotes_bound lo l -> denotes_bound hi h -> lon_range_b64 c lo hi = lon_sel r l h.
Proof.
  intros H Hl Hh. unfold lon_range_b64, lon_sel. destruct lo as [x|], l as [a|]; try contradiction; destruct hi as [y|], h as [b|]; try contradiction; cbn in Hl, Hh.
  - rewrite (denotes_lt _ _ _ _ Hh Hl). destruct (Rltb b a).
    + f_equal; [|f_equal]; (apply pick_same; [assumption|]); intros z v Hz; [f_equal|]; now apply denotes_le.
    + apply pick_same; [assumption|]. intros z v Hz. f_equal; now apply denotes_le.
  - apply pick_same; [assumption|]. intros z v Hz. now apply denotes_le.
  - apply pick_same; [assumption|]. intros z v Hz. now apply denotes_le.
  - now rewrite (denote_length _ _ H).
Qed.
Lemma pick_In c p i : In i (pick c p) <-> (i < length c)%nat /\ p (nth i c 0) = true.
Proof. unfold pick. rewrite filter_In, in_seq. intuition lia. Qed.
Lemma lat_sel_In r l h i : In i (lat_sel r l h) <-> (i < length r)%nat /\ in_latitudes 0 l h (nth i r 0).
Proof.
  unfold lat_sel, in_latitudes. destruct l as [a|], h as [b|]; rewrite ?pick_In, ?Bool.andb_true_iff, ?Rleb_true, ?in_seq, ?Rminus_0_r, ?Rplus_0_r; intuition lia.
Qed.
Lemma roll_In {A} (l : list A) k x : In x (roll l k) <-> In x l.
Proof.
  unfold roll. destruct (length l); [tauto|]. set (s := (S n - k mod S n)%nat). rewrite in_app_iff. rewrite <- (firstn_skipn s l) at 3. rewrite in_app_iff. tauto.
Qed.
Lemma lon_sel_In r l h i : In i (lon_sel r l h) <-> (i < length r)%nat /\ in_longitudes 0 l h (nth i r 0).
Proof.
  unfold lon_sel, in_longitudes. destruct l as [a|], h as [b|]; try (rewrite ?pick_In, ?Bool.andb_true_iff, ?Rleb_true, ?in_seq, ?Rminus_0_r, ?Rplus_0_r; intuition lia).
  destruct (Rltb b a) eqn:E.
  - apply Rltb_true in E. rewrite roll_In, pick_In, Bool.orb_true_iff, !Rleb_true, Rminus_0_r, Rplus_0_r. intuition lra.
  - apply Rltb_false in E. rewrite pick_In, Bool.andb_true_iff, !Rleb_true, Rminus_0_r, Rplus_0_r. intuition lra.
Qed.
Lemma in_latitudes_mono d e l h x y : Rabs (x - y) <= e -> in_latitudes d l h x -> in_latitudes (d + e) l h y.
Proof. intros E. apply Rabs_le_inv in E. unfold in_latitudes. destruct l, h; try tauto; intros; lra. Qed.
Lemma in_longitudes_mono d e l h x y : Rabs (x - y) <= e -> in_longitudes d l h x -> in_longitudes (d + e) l h y.
Proof. intros E. apply Rabs_le_inv in E. unfold in_longitudes. destruct l, h; try tauto; intros H; try lra. Qed.
