(** The coordinates of datasets in double precision: proofs. *)
From Coq Require Import Reals ZArith Lia Lra List Bool.
From Flocq Require Import Core Relative.
From Verif Require Import Base Model_Grid Model_Float Model_FloatGrid Model_FloatPick Model_FloatIO Spec_Float Spec_FloatGrid Spec_FloatPick Proofs_Base Proofs_Float Proofs_FloatRun Proofs_FloatGrid Proofs_FloatPick.
From Flocq Require Import BinarySingleNaN.
Import ListNotations.
Open Scope R_scope.

Lemma diff_In v x : In x (diff_b64 v) -> exists k, (S k < length v)%nat /\ x = b64_sub (nth (S k) v S754_nan) (nth k v S754_nan).
Proof.
  unfold diff_b64. intros H. apply in_map_iff in H as [[a b] [<- H]]. cbn [fst snd]. revert H.
  induction v as [|c [|d v] IH]; [easy|easy|]. intros [E|H].
  - injection E as <- <-. exists 0%nat. split; [cbn; lia|reflexivity].
  - destruct (IH H) as [k [K E]]. exists (S k). split; [cbn in *; lia|exact E].
Qed.
Lemma diff_hd v : (2 <= length v)%nat -> exists t, diff_b64 v = b64_sub (nth 1 v S754_nan) (nth 0 v S754_nan) :: t.
Proof. destruct v as [|a [|b v]]; cbn [length]; try lia. intros _. eexists. reflexivity. Qed.
Lemma denotes_opp x r : denotes x r -> denotes (SFopp x) (- r).
Proof.
  intros (V & F & E). split; [destruct x; exact V|]. split; [destruct x; try contradiction; exact I|].
  destruct x as [s|s| |s m e]; try contradiction; cbn [SFopp float_value] in *; subst r; [ring|]. destruct s; cbn [negb]; ring.
Qed.
Lemma p41 : / 2 ^ 41 = / 2199023255552. Proof. rewrite (pow_IZR 2 41). reflexivity. Qed.
Lemma p43 : / 2 ^ 43 = / 8796093022208. Proof. rewrite (pow_IZR 2 43). reflexivity. Qed.
Lemma p52 : 2 ^ 52 = 4503599627370496. Proof. rewrite (pow_IZR 2 52). reflexivity. Qed.

(** a - b of doubles close to a0 and b0 *)
Lemma sub_close x y a b a0 b0 : denotes x a -> denotes y b -> Rabs (a - a0) <= / 2 ^ 43 -> Rabs (b - b0) <= / 2 ^ 43 -> Rabs a0 <= 360 -> Rabs b0 <= 360 ->
  exists v, denotes (b64_sub x y) v /\ v = rnd (a - b) /\ Rabs (v - (a0 - b0)) <= / 2 ^ 41.
Proof.
  intros Hx Hy A B A0 B0. exists (rnd (a - b)). rewrite p43 in *. apply Rabs_le_inv in A, B, A0, B0. split; [|split; [reflexivity|]].
  - apply denotes_sub_rnd; auto. rewrite p53. apply Rabs_le. lra.
  - pose proof (rnd_err (a - b)) as E. pose proof tiny as [T0 T1]. set (t := / 2 ^ 100) in *. rewrite hu in E. rewrite p41.
    assert (S : Rabs (a - b) <= 721) by (apply Rabs_le; lra). apply Rabs_le_inv in E. apply Rabs_le. lra.
Qed.
Lemma close_values x y a b : denotes x a -> denotes y b -> Rabs (a - b) <= / 2 ^ 38 -> Rabs a <= 400 -> isclose_b64 x y = true.
Proof.
  intros Hx Hy D A. assert (P38 : / 2 ^ 38 = / 274877906944) by (rewrite (pow_IZR 2 38); reflexivity). rewrite P38 in D. apply Rabs_le_inv in D, A.
  apply (close_near x y a a b Hx Hy); [apply Rabs_le; lra|rewrite p52; apply Rabs_le; lra|rewrite Rminus_diag_eq, Rabs_R0, p43 by easy; lra|].
  unfold clearly_near. rewrite tolerance_value, p42, p49. pose proof (Rabs_pos b). set (w := Rabs b) in *.
  apply Rle_trans with (/ 274877906944); [apply Rabs_le; lra|]. lra.
Qed.

(** a list of doubles close to equidistant positions *)
Definition positioned (l : list b64) (N : nat) (pos : nat -> R) : Prop :=
  length l = N /\ forall k, (k < N)%nat -> Rabs (pos k) <= 360 /\ exists r, denotes (nth k l S754_nan) r /\ Rabs (r - pos k) <= / 2 ^ 43.
Lemma step_at l N pos k : positioned l N pos -> (S k < N)%nat ->
  exists v, denotes (b64_sub (nth (S k) l S754_nan) (nth k l S754_nan)) v /\ Rabs (v - (pos (S k) - pos k)) <= / 2 ^ 41.
Proof.
  intros [L P] K. destruct (P (S k) K) as [B1 [r1 [D1 E1]]]. destruct (P k ltac:(lia)) as [B0 [r0 [D0 E0]]].
  destruct (sub_close _ _ _ _ _ _ D1 D0 E1 E0 B1 B0) as [v [D [_ E]]]. eauto.
Qed.
Lemma steps_close l N pos d : positioned l N pos -> (2 <= N)%nat -> Rabs d <= 360 -> (forall k, pos (S k) - pos k = d) ->
  exists x t v, diff_b64 l = x :: t /\ x = b64_sub (nth 1 l S754_nan) (nth 0 l S754_nan) /\ denotes x v /\ Rabs (v - d) <= / 2 ^ 41
    /\ forallb (fun y => isclose_b64 x y) (diff_b64 l) = true.
Proof.
  intros P N2 B S. pose proof P as [L _]. destruct (diff_hd l ltac:(lia)) as [t E]. destruct (step_at l N pos 0 P ltac:(lia)) as [v [D V]]. rewrite S in V.
  exists (b64_sub (nth 1 l S754_nan) (nth 0 l S754_nan)), t, v. split; [exact E|]. split; [reflexivity|]. split; [exact D|]. split; [exact V|].
  apply forallb_forall. intros y Hy. apply diff_In in Hy as [k [K ->]]. rewrite L in K. destruct (step_at l N pos k P K) as [w [D' V']]. rewrite S in V'.
  apply (close_values _ _ v w D D').
  - assert (P38 : / 2 ^ 38 = / 274877906944) by (rewrite (pow_IZR 2 38); reflexivity). rewrite P38. rewrite p41 in *. apply Rabs_le_inv in V, V'. apply Rabs_le. lra.
  - rewrite p41 in V. apply Rabs_le_inv in V, B. apply Rabs_le. lra.
Qed.
Lemma last_nth (l : list b64) d : last l d = nth (length l - 1) l d.
Proof. induction l as [|a [|b l] IH]; [reflexivity|reflexivity|]. cbn [last length Nat.sub nth] in *. rewrite IH. now replace (length l - 0)%nat with (length l) by lia. Qed.
Lemma hd_nth {A} (l : list A) d : hd d l = nth 0 l d.
Proof. now destruct l. Qed.

Lemma lon_positioned n : (1 <= n)%nat -> (Z.of_nat n <= 2 ^ 40)%Z -> positioned (lon_b64 n) n (longitude n).
Proof.
  intros Hn Hb. pose proof (lon_denotes n Hn Hb) as D. pose proof (denote_length _ _ D) as L. rewrite tab_length in L. split; [exact L|]. intros k K.
  pose proof (denote_nth _ _ D k ltac:(rewrite tab_length; exact K)) as Dk. rewrite tab_nth in Dk by exact K.
  assert (N1 : 1 <= INR n) by (apply (le_INR 1); lia). assert (KN : INR k <= INR n) by (apply le_INR; lia). pose proof (pos_INR k).
  split; [|exists (fl_lon n k); split; [exact Dk|apply lon_error; auto; lia]].
  unfold longitude. assert (0 <= 360 * INR k / INR n <= 360); [|apply Rabs_le; lra]. split; [apply Rmult_le_pos; [lra|left; apply Rinv_0_lt_compat; lra]|].
  apply Rmult_le_reg_r with (INR n); [lra|]. unfold Rdiv. rewrite Rmult_assoc, Rinv_l by lra. lra.
Qed.
Lemma lat_positioned n : (1 <= n)%nat -> (Z.of_nat n <= 2 ^ 40)%Z -> positioned (lat_b64 (S n)) (S n) (latitude n).
Proof.
  intros Hn Hb. pose proof (lat_denotes n Hn Hb) as D. pose proof (denote_length _ _ D) as L. rewrite tab_length in L. split; [exact L|]. intros k K.
  pose proof (denote_nth _ _ D k ltac:(rewrite tab_length; exact K)) as Dk. rewrite tab_nth in Dk by exact K.
  assert (N1 : 1 <= INR n) by (apply (le_INR 1); lia). assert (KN : INR k <= INR n) by (apply le_INR; lia). pose proof (pos_INR k).
  split.
  - unfold latitude. assert (0 <= 180 * INR k / INR n <= 180); [|apply Rabs_le; lra]. split; [apply Rmult_le_pos; [lra|left; apply Rinv_0_lt_compat; lra]|].
    apply Rmult_le_reg_r with (INR n); [lra|]. unfold Rdiv. rewrite Rmult_assoc, Rinv_l by lra. lra.
  - exists (fl_lat n k). split; [exact Dk|]. eapply Rle_trans; [apply lat_error; auto; lia|]. apply Rinv_le_contravar; [apply pow_lt; lra|]. apply Rle_pow; [lra|lia].
Qed.
Lemma lon_step n k : (1 <= n)%nat -> longitude n (S k) - longitude n k = 360 / INR n.
Proof. intros H. assert (1 <= INR n) by (apply (le_INR 1); lia). unfold longitude. rewrite S_INR. field. lra. Qed.
Lemma lat_step n k : (1 <= n)%nat -> latitude n (S k) - latitude n k = - (180 / INR n).
Proof. intros H. assert (1 <= INR n) by (apply (le_INR 1); lia). unfold latitude. rewrite S_INR. field. lra. Qed.
Lemma step_range A n : 0 < A <= 360 -> (2 <= n)%nat -> (Z.of_nat n <= 2 ^ 40)%Z -> A * / 1099511627776 <= A / INR n <= 180.
Proof.
  intros HA Hn Hb. assert (N1 : 2 <= INR n) by (apply (le_INR 2); lia). pose proof (inv_40 n ltac:(lia) Hb) as I. unfold Rdiv. split; [apply Rmult_le_compat_l; lra|].
  pose proof (Rinv_le_contravar 2 (INR n) ltac:(lra) N1). nra.
Qed.

(** the spacing that is found *)
Definition spacing (n : nat) : R := rnd (360 / INR n).
Lemma spacing_lon n : fl_lon n 1 = spacing n.
Proof. unfold fl_lon, fl_at, fl_step, spacing. cbn [INR]. now rewrite Rmult_1_l, Rplus_0_r, !rnd_rnd. Qed.
Lemma check_lon_ok n : (2 <= n)%nat -> (Z.of_nat n <= 2 ^ 40)%Z -> exists x, check_lon_b64 (lon_b64 n) = Ok x /\ denotes x (spacing n) /\ Rabs (spacing n - 360 / INR n) <= / 2 ^ 41.
Proof.
  intros Hn Hb. pose proof (lon_positioned n ltac:(lia) Hb) as P. pose proof (step_range 360 n ltac:(lra) Hn Hb) as SR. pose proof P as [L _].
  destruct (steps_close _ _ _ (360 / INR n) P Hn) as (x & t & v & E & Ex & D & V & F); [apply Rabs_le; lra|intros k; apply lon_step; lia|].
  assert (W : v = spacing n).
  { pose proof (lon_denotes n ltac:(lia) Hb) as DL. pose proof (denote_nth _ _ DL 1 ltac:(rewrite tab_length; lia)) as D1. pose proof (denote_nth _ _ DL 0 ltac:(rewrite tab_length; lia)) as D0.
    rewrite tab_nth in D1, D0 by lia. rewrite lon_first in D0. rewrite spacing_lon in D1.
    assert (S : denotes x (rnd (spacing n - 0))).
    { rewrite Ex. apply denotes_sub_rnd; auto. rewrite p53, Rminus_0_r. pose proof (lon_error n 1 ltac:(lia) Hb ltac:(lia)) as Er. rewrite spacing_lon in Er.
      unfold longitude in Er. cbn [INR] in Er. rewrite Rmult_1_r, p43 in Er. apply Rabs_le_inv in Er. apply Rabs_le. lra. }
    rewrite Rminus_0_r in S. unfold spacing in S. rewrite rnd_rnd in S. unfold spacing. destruct D as (_ & _ & D), S as (_ & _ & S). congruence. }
  rewrite W in D, V. exists x. split; [|split; assumption]. unfold check_lon_b64. rewrite L, E. destruct (Nat.ltb_spec 0 n); [|lia]. cbn [passert]. rewrite <- E, F. cbn [passert].
  rewrite (denotes_lt (b64_of_Z 0) x 0 (spacing n)) by (auto; apply (denotes_of_Z 0); lia). rewrite p41 in V. apply Rabs_le_inv in V.
  replace (Rltb 0 (spacing n)) with true by (symmetry; apply Rltb_true; lra). cbn [passert].
  rewrite last_nth, hd_nth, L. destruct P as [_ P]. destruct (P (n - 1)%nat ltac:(lia)) as [B1 [r1 [D1 E1]]]. destruct (P 0%nat ltac:(lia)) as [B0 [r0 [D0 E0]]].
  destruct (sub_close _ _ _ _ _ _ D1 D0 E1 E0 B1 B0) as [a [Da [_ Ea]]].
  assert (D360 : denotes (b64_of_Z 360) 360) by (apply (denotes_of_Z 360); lia).
  assert (T : longitude n (n - 1) - longitude n 0 = 360 - 360 / INR n).
  { assert (2 <= INR n) by (apply (le_INR 2); lia). unfold longitude. rewrite minus_INR by lia. cbn [INR]. field. lra. }
  rewrite T in Ea.
  assert (Db : denotes (b64_sub (b64_of_Z 360) x) (rnd (360 - spacing n))) by (apply denotes_sub_rnd; auto; rewrite p53; apply Rabs_le; lra).
  match goal with |- context [isclose_b64 ?a ?b] => replace (isclose_b64 a b) with true; [reflexivity|symmetry; apply (close_values a b _ _ Da Db)] end.
  - assert (P38 : / 2 ^ 38 = / 274877906944) by (rewrite (pow_IZR 2 38); reflexivity). rewrite P38. rewrite p41 in Ea. apply Rabs_le_inv in Ea.
    pose proof (rnd_err (360 - spacing n)) as Er. pose proof tiny as [T0 T1]. set (q := / 2 ^ 100) in *. rewrite hu in Er.
    assert (Rabs (360 - spacing n) <= 361) by (apply Rabs_le; lra). apply Rabs_le_inv in Er. apply Rabs_le. lra.
  - rewrite p41 in Ea. apply Rabs_le_inv in Ea. apply Rabs_le. lra.
Qed.
Lemma check_lat_form m nlon x v : (2 <= m)%nat -> (Z.of_nat m <= 2 ^ 40)%Z -> denotes x v -> Rabs v <= 400 -> Nat.div nlon 2 = m ->
  exists y w, denotes y w /\ Rabs (w - - (180 / INR m)) <= / 2 ^ 41 /\ check_lat_b64 (lat_b64 (S m)) nlon x = passert (isclose_b64 y (SFopp x)) (Ok tt).
Proof.
  intros Hm Hb D B Q. pose proof (lat_positioned m ltac:(lia) Hb) as P. pose proof (step_range 180 m ltac:(lra) Hm Hb) as SR. pose proof P as [L _].
  destruct (steps_close _ _ _ (- (180 / INR m)) P) as (y & t & w & E & Ex & Dw & V & F); [lia|apply Rabs_le; lra|intros k; apply lat_step; lia|].
  exists y, w. split; [exact Dw|]. split; [exact V|]. unfold check_lat_b64. rewrite L, E, Q. cbn [Nat.ltb Nat.leb passert]. replace (S m - 1)%nat with m by lia. rewrite Nat.eqb_refl. cbn [passert].
  rewrite <- E, F. cbn [passert]. rewrite (denotes_lt y (b64_of_Z 0) w 0) by (auto; apply (denotes_of_Z 0); lia). rewrite p41 in V. apply Rabs_le_inv in V.
  replace (Rltb w 0) with true by (symmetry; apply Rltb_true; lra). reflexivity.
Qed.

(** the shape of the grid *)
Lemma int_of_value x v A : denotes x v -> 0 < v -> (0 < A <= 2 ^ 53)%Z -> IZR A / v <= IZR (2 ^ 53) ->
  b64_int (b64_div (b64_of_Z A) x) = Some (Zfloor (rnd (IZR A / v))).
Proof.
  intros D P HA B. assert (A0 : 0 < IZR A) by (apply IZR_lt; lia). assert (Q : 0 <= IZR A / v) by (apply Rlt_le, Rdiv_lt_0_compat; lra).
  pose proof (denotes_div_rnd _ _ _ _ (denotes_of_Z A ltac:(lia)) D ltac:(lra) ltac:(rewrite Rabs_pos_eq; assumption)) as DD.
  apply denotes_B in DD as [b [-> [Fb Vb]]]. rewrite int_floor; [now rewrite Vb|exact Fb|]. rewrite Vb, <- rnd_0.
  apply round_le; [apply fexp_correct; exact Hprec|apply valid_rnd_round_mode|exact Q].
Qed.
(** rounding and factors of two *)
Lemma rnd_double q : / 2 ^ 1000 <= q -> rnd (q * 2) = rnd q * 2.
Proof.
  intros H. assert (P : 0 < / 2 ^ 1000) by (apply Rinv_0_lt_compat, pow_lt; lra). assert (Q : q <> 0) by lra.
  assert (B : bpow radix2 1 = 2) by reflexivity. rewrite <- B at 1. replace (rnd q * 2) with (rnd q * bpow radix2 1) by now rewrite B. unfold round, scaled_mantissa, cexp.
  assert (M : mag radix2 (q * bpow radix2 1) = (mag radix2 q + 1)%Z :> Z) by now apply mag_mult_bpow. rewrite M.
  assert (L : (-999 <= mag radix2 q)%Z).
  { apply mag_ge_bpow. rewrite Rabs_pos_eq by lra. eapply Rle_trans; [|exact H]. change (-999 - 1)%Z with (- (1000))%Z. rewrite bpow_opp.
    replace (bpow radix2 1000) with (2 ^ 1000); [lra|]. rewrite bpow_powerRZ, pow_powerRZ. reflexivity. }
  assert (X : fe (mag radix2 q + 1) = (fe (mag radix2 q) + 1)%Z) by (unfold SpecFloat.fexp, SpecFloat.emin; lia).
  rewrite X.
  replace (q * bpow radix2 1 * bpow radix2 (- (fe (mag radix2 q) + 1))) with (q * bpow radix2 (- fe (mag radix2 q))).
  - unfold F2R. cbn [Fnum Fexp]. rewrite bpow_plus. ring.
  - rewrite Rmult_assoc, <- bpow_plus. do 2 f_equal. lia.
Qed.

Lemma spacing_pos n : (2 <= n)%nat -> (Z.of_nat n <= 2 ^ 40)%Z -> Rabs (spacing n - 360 / INR n) <= / 2 ^ 41 -> / 1099511627776 <= spacing n <= 181.
Proof. intros Hn Hb V. pose proof (step_range 360 n ltac:(lra) Hn Hb). rewrite p41 in V. apply Rabs_le_inv in V. lra. Qed.
Lemma pow1000 : / 2 ^ 1000 <= / 2 ^ 41.
Proof. apply Rinv_le_contravar; [apply pow_lt; lra|]. apply Rle_pow; [lra|lia]. Qed.
Definition recovered (n : nat) : R := rnd (360 / spacing n).
Lemma shape_value n x : (2 <= n)%nat -> (Z.of_nat n <= 2 ^ 40)%Z -> denotes x (spacing n) -> Rabs (spacing n - 360 / INR n) <= / 2 ^ 41 ->
  nlon_b64 x = Some (Zfloor (recovered n)) /\ nlat_b64 x = Some (Zfloor (recovered n / 2) + 1)%Z.
Proof.
  intros Hn Hb D V. pose proof (spacing_pos n Hn Hb V) as [S1 S2].
  assert (I : / 181 <= / spacing n <= 1099511627776).
  { split; [apply Rinv_le_contravar; lra|]. rewrite <- (Rinv_inv 1099511627776). apply Rinv_le_contravar; lra. }
  split.
  - unfold nlon_b64. rewrite (int_of_value x (spacing n) 360); auto; [lra|lia|]. rewrite p53. unfold Rdiv. lra.
  - unfold nlat_b64. rewrite (int_of_value x (spacing n) 180); auto; [|lra|lia|rewrite p53; unfold Rdiv; lra]. cbn [option_map]. unfold recovered.
    replace (360 / spacing n) with (180 / spacing n * 2) by (field; lra). pose proof pow1000 as PW. rewrite p41 in PW. rewrite rnd_double by (unfold Rdiv; lra).
    now replace (rnd (180 / spacing n) * 2 / 2) with (rnd (180 / spacing n)) by field.
Qed.
(** the quotient is the number or less by less than one *)
Lemma half_floor q m : IZR (2 * m - 1) <= q < IZR (2 * m + 1) ->
  (Zfloor q = 2 * m /\ Zfloor (q / 2) = m \/ Zfloor q = 2 * m - 1 /\ Zfloor (q / 2) = m - 1)%Z.
Proof.
  rewrite !minus_IZR, !plus_IZR, !mult_IZR. intros [A B]. destruct (Rlt_le_dec q (2 * IZR m)) as [C|C]; [right|left]; split; apply Zfloor_imp; rewrite ?plus_IZR, ?minus_IZR, ?mult_IZR; lra.
Qed.

Lemma resolution_denotes n : (2 <= n)%nat -> (Z.of_nat n <= 2 ^ 40)%Z -> denotes (resolution_360 (Z.of_nat n)) (spacing n).
Proof.
  intros Hn Hb. assert (N1 : 2 <= INR n) by (apply (le_INR 2); lia). pose proof (step_range 360 n ltac:(lra) Hn Hb) as SR. unfold resolution_360, spacing.
  pose proof (denotes_of_Z (Z.of_nat n) ltac:(lia)) as Dn. rewrite <- INR_IZR_INZ in Dn.
  apply denotes_div_rnd; auto; [apply (denotes_of_Z 360); lia|lra|]. rewrite p53. apply Rabs_le. lra.
Qed.
Lemma spacing_close n : (2 <= n)%nat -> (Z.of_nat n <= 2 ^ 40)%Z -> Rabs (spacing n - 360 / INR n) <= / 2 ^ 41.
Proof. intros Hn Hb. destruct (check_lon_ok n Hn Hb) as (_ & _ & _ & H). exact H. Qed.
Lemma recovered_range n : (2 <= n)%nat -> (Z.of_nat n <= 2 ^ 40)%Z -> IZR (Z.of_nat n - 1) <= recovered n < IZR (Z.of_nat n + 1).
Proof.
  intros Hn Hb. destruct (shape_value n _ Hn Hb (resolution_denotes n Hn Hb) (spacing_close n Hn Hb)) as [E _].
  destruct (int_of_quotient 360 1 (Z.of_nat n)) as (N & EN & IN); [lia|lia|lia|lia|lia|]. unfold nlon_b64, resolution_360 in E. change (360 * 1)%Z with 360%Z in EN. rewrite E in EN. injection EN as EN.
  pose proof (Zfloor_lb (recovered n)) as A. pose proof (Zfloor_ub (recovered n)) as B. rewrite EN in A, B. rewrite minus_IZR, plus_IZR.
  destruct IN as [-> | ->]; rewrite ?minus_IZR, ?mult_IZR in A, B; lra.
Qed.

Definition kept (m : nat) : Prop := dataset_shape_b64 (lon_b64 (2 * m)) (lat_b64 (m + 1)) = Ok (2 * Z.of_nat m, Z.of_nat m + 1)%Z.
Lemma dataset_shape_value m : (2 <= m)%nat -> (Z.of_nat m <= 2 ^ 39)%Z ->
  dataset_shape_b64 (lon_b64 (2 * m)) (lat_b64 (m + 1)) = Ok (Zfloor (recovered (2 * m)), Zfloor (recovered (2 * m) / 2) + 1)%Z.
Proof.
  intros Hm Hb. assert (H2 : (2 <= 2 * m)%nat) by lia. assert (Hb2 : (Z.of_nat (2 * m) <= 2 ^ 40)%Z) by lia. rewrite Nat.add_1_r.
  destruct (check_lon_ok (2 * m) H2 Hb2) as (x & E & D & V). destruct (shape_value _ x H2 Hb2 D V) as [E1 E2]. pose proof (spacing_pos _ H2 Hb2 V) as SP.
  pose proof (lon_positioned (2 * m) ltac:(lia) Hb2) as [L _].
  unfold dataset_shape_b64. rewrite E, L. cbn [bind].
  destruct (check_lat_form m (2 * m) x (spacing (2 * m))) as (y & w & Dw & W & ->); auto; [lia|apply Rabs_le; lra|rewrite Nat.mul_comm; apply Nat.div_mul; lia|].
  assert (C : isclose_b64 y (SFopp x) = true).
  { apply (close_values _ _ w (- spacing (2 * m)) Dw (denotes_opp _ _ D)).
    - rewrite mult_INR in V. cbn [INR] in V. assert (2 <= INR m) by (apply (le_INR 2); lia).
      replace (360 / ((1 + 1) * INR m)) with (180 / INR m) in V by (field; lra). assert (P38 : / 2 ^ 38 = / 274877906944) by (rewrite (pow_IZR 2 38); reflexivity). rewrite P38.
      rewrite p41 in *. apply Rabs_le_inv in V, W. apply Rabs_le. lra.
    - pose proof (step_range 180 m ltac:(lra) Hm ltac:(lia)). rewrite p41 in W. apply Rabs_le_inv in W. apply Rabs_le. lra. }
  rewrite C, E1, E2. reflexivity.
Qed.
Lemma dataset_shape_cases m : (2 <= m)%nat -> (Z.of_nat m <= 2 ^ 39)%Z ->
  let M := Z.of_nat m in
  (kept m /\ IZR (2 * M) <= recovered (2 * m))
  \/ (dataset_shape_b64 (lon_b64 (2 * m)) (lat_b64 (m + 1)) = Ok (2 * M - 1, M)%Z /\ recovered (2 * m) < IZR (2 * M)).
Proof.
  intros Hm Hb M. unfold kept. rewrite (dataset_shape_value m Hm Hb). pose proof (recovered_range (2 * m) ltac:(lia) ltac:(lia)) as R. rewrite Nat2Z.inj_mul in R. change (Z.of_nat 2) with 2%Z in R. fold M in R |- *.
  pose proof (Zfloor_lb (recovered (2 * m))) as A. pose proof (Zfloor_ub (recovered (2 * m))) as B.
  destruct (half_floor (recovered (2 * m)) M R) as [[F1 F2]|[F1 F2]]; rewrite F1, F2 in *; [left|right]; split; try reflexivity.
  - exact A.
  - do 2 f_equal. lia.
  - rewrite minus_IZR in B. lra.
Qed.
Lemma kept_iff m : (2 <= m)%nat -> (Z.of_nat m <= 2 ^ 39)%Z -> kept m <-> IZR (2 * Z.of_nat m) <= recovered (2 * m).
Proof.
  intros Hm Hb. destruct (dataset_shape_cases m Hm Hb) as [[K R]|[E R]]; split; intros H; auto; [|lra]. unfold kept in H. rewrite E in H. assert (X : (2 * Z.of_nat m - 1 = 2 * Z.of_nat m)%Z) by congruence. lia.
Qed.
Lemma kept_count m : (2 <= m)%nat -> (Z.of_nat m <= 2 ^ 39)%Z -> kept m <-> nlon_b64 (resolution_360 (Z.of_nat (2 * m))) = Some (Z.of_nat (2 * m)).
Proof.
  intros Hm Hb. destruct (shape_value (2 * m) _ ltac:(lia) ltac:(lia) (resolution_denotes (2 * m) ltac:(lia) ltac:(lia)) (spacing_close (2 * m) ltac:(lia) ltac:(lia))) as [E _].
  rewrite E. unfold kept. rewrite (dataset_shape_value m Hm Hb). split; intros H.
  - assert (X : Zfloor (recovered (2 * m)) = (2 * Z.of_nat m)%Z) by congruence. rewrite X, Nat2Z.inj_mul. reflexivity.
  - assert (X : Zfloor (recovered (2 * m)) = Z.of_nat (2 * m)) by congruence. destruct (dataset_shape_cases m Hm Hb) as [[K R]|[_ R]]; [unfold kept in K; now rewrite (dataset_shape_value m Hm Hb) in K|].
    pose proof (Zfloor_lb (recovered (2 * m))) as A. rewrite X, Nat2Z.inj_mul in A. change (Z.of_nat 2) with 2%Z in A. lra.
Qed.
Lemma recovered_double n : (2 <= n)%nat -> (Z.of_nat n <= 2 ^ 39)%Z -> recovered (2 * n) = recovered n * 2.
Proof.
  intros Hn Hb. assert (N1 : 2 <= INR n) by (apply (le_INR 2); lia). pose proof (step_range 360 (2 * n) ltac:(lra) ltac:(lia) ltac:(lia)) as SR. pose proof pow1000 as PW. rewrite p41 in PW.
  pose proof (spacing_pos (2 * n) ltac:(lia) ltac:(lia) (spacing_close (2 * n) ltac:(lia) ltac:(lia))) as SP.
  assert (E : spacing n = spacing (2 * n) * 2).
  { unfold spacing. rewrite <- rnd_double by lra. f_equal. rewrite mult_INR. cbn [INR]. field. lra. }
  unfold recovered. rewrite E. rewrite <- rnd_double; [f_equal; field; lra|].
  apply Rle_trans with (/ 362); [lra|]. unfold Rdiv. pose proof (Rinv_le_contravar (spacing (2 * n) * 2) 362 ltac:(lra) ltac:(lra)). pose proof (Rinv_0_lt_compat (spacing (2 * n) * 2) ltac:(lra)). lra.
Qed.

Lemma odd_rejected m : (2 <= m)%nat -> (Z.of_nat m <= 20000)%Z -> dataset_shape_b64 (lon_b64 (2 * m + 1)) (lat_b64 (m + 1)) = Err AssertionError.
Proof.
  intros Hm Hb. assert (H2 : (2 <= 2 * m + 1)%nat) by lia. assert (Hb2 : (Z.of_nat (2 * m + 1) <= 2 ^ 40)%Z) by lia. replace (m + 1)%nat with (S m) by lia.
  destruct (check_lon_ok (2 * m + 1) H2 Hb2) as (x & E & D & V). pose proof (spacing_pos _ H2 Hb2 V) as SP.
  pose proof (lon_positioned (2 * m + 1) ltac:(lia) Hb2) as [L _].
  unfold dataset_shape_b64. rewrite E, L. cbn [bind].
  destruct (check_lat_form m (2 * m + 1) x (spacing (2 * m + 1))) as (y & w & Dw & W & ->); auto; [lia|apply Rabs_le; lra|rewrite Nat.mul_comm, Nat.div_add_l by lia; cbn; lia|].
  assert (C : isclose_b64 y (SFopp x) = false).
  { assert (M2 : 2 <= INR m) by (apply (le_INR 2); lia). assert (MM : INR m <= 20000) by (rewrite INR_IZR_INZ; apply IZR_le; lia).
    set (v := spacing (2 * m + 1)) in *. rewrite plus_INR, mult_INR in V. cbn [INR] in V. set (q := 180 / (2 * INR m + 1)).
    assert (Q : 0 < q) by (apply Rdiv_lt_0_compat; lra). assert (QE : q * (2 * INR m + 1) = 180) by (unfold q; field; lra).
    replace (360 / ((1 + 1) * INR m + 1)) with (2 * q) in V by (unfold q; field; lra).
    assert (T : 180 / INR m = 2 * q + q * / INR m) by (unfold q; field; lra). rewrite T in W.
    pose proof (Rinv_le_contravar (INR m) 20000 ltac:(lra) MM) as MI. assert (MI2 : / INR m <= / 2) by (apply Rinv_le_contravar; lra). assert (QM : q * / 20000 <= q * / INR m <= q * / 2) by (split; apply Rmult_le_compat_l; lra).
    assert (Q1 : / 250 <= q) by nra. assert (Q2 : q <= 36) by nra. rewrite p41 in *. apply Rabs_le_inv in V, W.
    apply (close_far y (SFopp x) w w (- v) Dw (denotes_opp _ _ D)); [apply Rabs_le; lra|rewrite p52; apply Rabs_le; lra|rewrite Rminus_diag_eq, Rabs_R0, p43 by easy; lra|].
    unfold clearly_far. rewrite tolerance_value, p42, p49, Rabs_Ropp, (Rabs_pos_eq v) by lra. rewrite Rabs_minus_sym. rewrite Rabs_pos_eq by lra. lra. }
  rewrite C. reflexivity.
Qed.
