(** The local dominant wavenumber: theorems. *)
From Coq Require Export String.
From Verif Require Import Base Spec_Filter Spec_Fourier Spec_Wavelet Model_Grid Model_Filter Model_Fourier Model_Wavelet Proofs_Base Proofs_Grid Proofs_StateList Proofs_Plot Proofs_Filter Proofs_Fourier Props_Fourier Props_Filter Proofs_Wavelet.
From Verif Require Import Model_Region.
From Coq Require Import List Lia Lra.
Open Scope R_scope.

Lemma scale_range m : (m < 120)%nat -> 3 <= scale_no m <= 192.
Proof.
  intros Hm. unfold scale_no. assert (M : 0 <= INR m <= 119).
  { split; [apply pos_INR|]. replace 119 with (INR 119) by (rewrite INR_IZR_INZ; reflexivity). apply le_INR. lia. }
  assert (P0 : Rpower 2 0 = 1) by (apply Rpower_O; lra).
  assert (P6 : Rpower 2 6 = 64). { replace 6 with (INR 6) by (rewrite INR_IZR_INZ; reflexivity). rewrite Rpower_pow by lra. lra. }
  assert (A1 : Rpower 2 0 <= Rpower 2 (6 * INR m / 119)) by (apply Rle_Rpower; lra).
  assert (A2 : Rpower 2 (6 * INR m / 119) <= Rpower 2 6) by (apply Rle_Rpower; lra). lra.
Qed.
Lemma wavenumber_range cf n m : 0 < cf -> (0 < n)%nat -> (m < 120)%nat -> wavenumber_of cf n 192 <= wavenumber_of cf n (scale_no m) <= wavenumber_of cf n 3.
Proof.
  intros C N Hm. destruct (scale_range m Hm) as [L U]. unfold wavenumber_of, Rdiv. assert (0 < cf * INR n) by (apply Rmult_lt_0_compat; [assumption|now apply lt_0_INR]).
  split; apply Rmult_le_compat_l; try lra; apply Rinv_le_contravar; lra.
Qed.

(** ** C93 *)
Definition cwt_keeps_length (W : pywt) : Prop := forall x s, length (cwt_row W x s) = length x.

Lemma unsmoothed W g f h : cwt_keeps_length W -> (1 <= h)%nat -> (0 < g_nlat g)%nat -> g_nlon g = (2 * h)%nat -> shaped (g_nlat g) (g_nlon g) f ->
  forall x, restrict_fourier_zonal f 0 20 = Ok x -> shaped (g_nlat g) (g_nlon g) x ->
  dominant_wavenumber_wavelet W f g None = Ok (A2 (mat_of (g_nlat g) (g_nlon g) (fun i j => nth (sel W (g_nlon g) x i j) (wavenum W g) 0))).
Proof.
  intros WL H1 N E Sf x Ex Sx. unfold dominant_wavenumber_wavelet. rewrite Ex. cbn [bind].
  rewrite (argmax_form W WL (g_nlat g) (g_nlon g) x Sx N) by lia. cbn [bind]. do 2 f_equal. unfold mat_of. rewrite tab_map. apply tab_ext. intros i Hi. now rewrite tab_map.
Qed.
Lemma smoothed W g f w wlon wlat k : dominant_wavenumber_wavelet W f g None = Ok k ->
  dominant_wavenumber_wavelet W f g (Some (w, wlon, wlat)) = (do k <- filter_meridional g k (ByName w wlat); filter_zonal g k (ByName w wlon)).
Proof.
  unfold dominant_wavenumber_wavelet. destruct (restrict_fourier_zonal f 0 20) as [x|]; cbn [bind]; [|discriminate].
  destruct (argmax_first_axis _) as [a|]; cbn [bind]; [|discriminate]. intros E. apply Ok_inj in E. now rewrite E.
Qed.

(** Without smoothing: at every gridpoint the result is the wavenumber of the
    first of the 120 scales with the largest power of the wavelet transform of
    the three times continued row, after removal of all waves shorter than
    wavenumber 20.  Missing: odd numbers of longitudes. *)
Theorem C93_dominant_partial : forall W g f h, cwt_keeps_length W -> (1 <= h)%nat -> (0 < g_nlat g)%nat -> g_nlon g = (2 * h)%nat ->
  shaped (g_nlat g) (g_nlon g) f ->
  exists x out, dominant_wavenumber_wavelet W f g None = Ok (A2 out) /\ shaped (g_nlat g) (g_nlon g) out /\ shaped (g_nlat g) (g_nlon g) x
  /\ (forall i k, (i < g_nlat g)%nat -> (k <= h)%nat ->
       ((k <= 20)%nat -> cos_coeff (nth i x []) k = cos_coeff (nth i f []) k /\ sin_coeff (nth i x []) k = sin_coeff (nth i f []) k)
       /\ ((20 < k)%nat -> cos_coeff (nth i x []) k = 0 /\ sin_coeff (nth i x []) k = 0))
  /\ forall i j, (i < g_nlat g)%nat -> (j < g_nlon g)%nat ->
     let pw m := power_at (cwt_row W (three_periods (nth i x [])) (scale_no m)) (g_nlon g + j) in
     exists m, (m < 120)%nat /\ mget out i j = wavenumber_of (central_frequency W) (g_nlon g) (scale_no m)
       /\ (forall l, (l < 120)%nat -> pw l <= pw m) /\ (forall l, (l < m)%nat -> pw l < pw m).
Proof.
  intros W g f h WL H1 N E Sf.
  destruct (C66_spectrum_partial h (g_nlat g) f 0 20 H1) as [x [Ex [Sx Cx]]]; [now rewrite <- E|]. rewrite <- E in Sx.
  eexists. eexists. split; [exact (unsmoothed W g f h WL H1 N E Sf x Ex Sx)|]. split; [apply shaped_mat_of|]. split; [exact Sx|]. split.
  - intros i k Hi Hk. destruct (Cx i k Hi Hk) as [C1 C2]. unfold in_range in *. split; intros K; [apply C1; lia|apply C2; lia].
  - intros i j Hi Hj pw. exists (sel W (g_nlon g) x i j). destruct (sel_spec W (g_nlon g) x i j) as [_ [S1 [S2 S3]]].
    split; [exact S1|]. split; [rewrite mget_mat_of by assumption; now apply wavenum_nth|]. split; [exact S2|exact S3].
Qed.
Print Assumptions C93_dominant_partial.

Lemma within_rows lo hi nr nc (m : mat) : shaped nr nc m -> ((forall i j, (i < nr)%nat -> (j < nc)%nat -> lo <= mget m i j <= hi) <-> Forall (within lo hi) m).
Proof.
  intros [L F]. split.
  - intros H. apply Forall_forall. intros r Hr. apply (In_nth _ _ []) in Hr as [i [Hi <-]]. apply Forall_forall. intros v Hv. apply (In_nth _ _ 0) in Hv as [j [Hj <-]].
    rewrite (shaped_row nr nc m i []) in Hj by first [split; assumption | lia]. apply H; lia.
  - intros H i j Hi Hj. rewrite Forall_forall in H. assert (I : In (nth i m []) m) by (apply nth_In; lia). specialize (H _ I). unfold within in H. rewrite Forall_forall in H.
    apply H, nth_In. rewrite (shaped_row nr nc m i []) by first [split; assumption | lia]. exact Hj.
Qed.
(** All values lie between the wavenumbers of the largest and of the smallest
    scale, with and without smoothing. *)
Theorem C93_range : forall W g f h smooth, cwt_keeps_length W -> 0 < central_frequency W -> (1 <= h)%nat -> (0 < g_nlat g)%nat -> 0 < g_res g -> g_nlon g = (2 * h)%nat ->
  shaped (g_nlat g) (g_nlon g) f -> match smooth with None => True | Some (_, wlon, wlat) => 0 <= wlon /\ 0 <= wlat end ->
  exists out, dominant_wavenumber_wavelet W f g smooth = Ok (A2 out) /\ shaped (g_nlat g) (g_nlon g) out
  /\ forall i j, (i < g_nlat g)%nat -> (j < g_nlon g)%nat ->
     wavenumber_of (central_frequency W) (g_nlon g) 192 <= mget out i j <= wavenumber_of (central_frequency W) (g_nlon g) 3.
Proof.
  intros W g f h smooth WL C H1 N Rp E Sf Hs.
  destruct (C93_dominant_partial W g f h WL H1 N E Sf) as [x [out [Eo [So [_ [_ Q]]]]]].
  assert (B : forall i j, (i < g_nlat g)%nat -> (j < g_nlon g)%nat ->
     wavenumber_of (central_frequency W) (g_nlon g) 192 <= mget out i j <= wavenumber_of (central_frequency W) (g_nlon g) 3).
  { intros i j Hi Hj. destruct (Q i j Hi Hj) as [m [Hm [-> _]]]. apply wavenumber_range; assumption || lia. }
  set (lo := wavenumber_of _ _ 192) in *. set (hi := wavenumber_of _ _ 3) in *.
  destruct smooth as [[[w wlon] wlat]|]; [|exists out; auto].
  rewrite (smoothed W g f w wlon wlat (A2 out) Eo).
  assert (V : forall wd, 0 <= wd -> exists win, get_filter_window g w wd = Ok win /\ all_nonneg win /\ unit_sum win).
  { intros wd Hw. destruct (C62_returns g w wd) as [V _]. destruct V as [win Ew].
    - apply Rle_trans with 0; [lra|]. unfold g_dlon, Rdiv. apply Rmult_le_pos; [exact Hw|]. now apply Rlt_le, Rinv_0_lt_compat.
    - exists win. split; [exact Ew|]. destruct (C62_window g w wd win Ew) as [_ [_ [P1 [P2 _]]]]. split; assumption. }
  destruct Hs as [Hlon Hlat]. destruct (V wlat Hlat) as [win1 [E1 [P1 U1]]]. destruct (V wlon Hlon) as [win2 [E2 [P2 U2]]].
  rewrite (C64_by_name g (A2 out) w wlat win1 E1). destruct (C64_columns g out win1 (g_nlon g) So N) as [o1 [Eo1 [So1 Q1]]]. rewrite Eo1. cbn [bind].
  assert (B1 : forall i j, (i < g_nlat g)%nat -> (j < g_nlon g)%nat -> lo <= mget o1 i j <= hi).
  { intros i j Hi Hj. specialize (Q1 j Hj). destruct (C64_range g (mcol out j) win1 lo hi) as [c [Ec [_ Wc]]]; try assumption.
    - rewrite mcol_length. apply So.
    - apply Forall_forall. intros v Hv. apply (In_nth _ _ 0) in Hv as [k [Hk <-]]. rewrite mcol_length in Hk. rewrite mcol_nth by exact Hk. apply B; [rewrite <- (proj1 So)|]; assumption.
    - rewrite Q1 in Ec. apply Ok_inj in Ec. injection Ec as <-. unfold within in Wc. rewrite Forall_forall in Wc. rewrite <- mcol_nth by (rewrite (proj1 So1); exact Hi).
      apply Wc, nth_In. rewrite mcol_length, (proj1 So1). exact Hi. }
  rewrite (C63_by_name g (A2 o1) w wlon win2 E2). destruct (C63_rows g o1 (ByArray win2) (g_nlat g) So1 N win2 eq_refl) as [o2 [Eo2 [So2 Q2]]].
  exists o2. split; [exact Eo2|]. split; [exact So2|]. intros i j Hi Hj. specialize (Q2 i Hi).
  destruct (C63_range g (nth i o1 []) win2 lo hi) as [r [Er Wr]]; try assumption.
  - apply (shaped_row (g_nlat g)); assumption.
  - apply (proj1 (within_rows lo hi _ _ o1 So1)) in B1. rewrite Forall_forall in B1. apply B1, nth_In. rewrite (proj1 So1). exact Hi.
  - rewrite Q2 in Er. apply Ok_inj in Er. injection Er as <-. unfold within in Wr. rewrite Forall_forall in Wr. apply Wr, nth_In.
    rewrite (shaped_row (g_nlat g) (g_nlon g) o2 i []) by assumption. exact Hj.
Qed.
Print Assumptions C93_range.

(** Every wavenumber in this range is met by one of the scales up to half of a
    step in the logarithm, a factor of 2^(3/119) = 1.0176. *)
Theorem C93_resolution : forall cf n k, 0 < cf -> (0 < n)%nat -> wavenumber_of cf n 192 <= k <= wavenumber_of cf n 3 ->
  exists m, (m < 120)%nat /\ k / Rpower 2 (3 / 119) <= wavenumber_of cf n (scale_no m) <= k * Rpower 2 (3 / 119).
Proof.
  intros cf n k C N [K1 K2]. assert (Nn : 0 < cf * INR n) by (apply Rmult_lt_0_compat; [assumption|now apply lt_0_INR]). unfold wavenumber_of in *.
  set (c := cf * INR n) in *. assert (Kp : 0 < k) by (apply Rlt_le_trans with (c / 192); lra).
  assert (L2 : 0 < ln 2) by (rewrite <- ln_1; apply ln_increasing; lra).
  set (t := ln (c / (3 * k)) / ln 2). assert (Et : Rpower 2 t = c / (3 * k)).
  { unfold Rpower, t. replace (ln (c / (3 * k)) / ln 2 * ln 2) with (ln (c / (3 * k))) by (field; lra). apply exp_ln. apply Rdiv_lt_0_compat; lra. }
  assert (P6 : Rpower 2 6 = 64). { replace 6 with (INR 6) by (rewrite INR_IZR_INZ; reflexivity). rewrite Rpower_pow by lra. lra. }
  assert (T : 0 <= t <= 6).
  { assert (Q : 1 <= c / (3 * k) <= 64).
    { split; apply Rmult_le_reg_r with (3 * k); try lra; unfold Rdiv; rewrite ?Rmult_assoc, ?Rinv_l, ?Rmult_1_r by lra; lra. }
    split.
    - apply Rnot_lt_le. intros Lt. apply (Rpower_lt 2) in Lt; [|lra]. rewrite Et, Rpower_O in Lt by lra. lra.
    - apply Rnot_lt_le. intros Lt. apply (Rpower_lt 2) in Lt; [|lra]. rewrite Et, P6 in Lt. lra. }
  set (y := 119 * t / 6). pose proof (Int_part_spec (y + 1 / 2)) as I. set (z := Int_part (y + 1 / 2)) in *.
  assert (Z0 : (0 <= z < 120)%Z). { split; [apply le_IZR with (z := 0%Z) || (apply Z.lt_succ_r; apply lt_IZR; rewrite succ_IZR)|apply lt_IZR]; unfold y in *; lra. }
  exists (Z.to_nat z). split; [lia|]. unfold scale_no. rewrite INR_IZR_INZ, Z2Nat.id by lia.
  assert (D : -3 / 119 <= 6 * IZR z / 119 - t <= 3 / 119) by (unfold y in *; lra).
  set (d := 6 * IZR z / 119 - t) in *. replace (6 * IZR z / 119) with (t + d) by (unfold d; ring). rewrite Rpower_plus, Et.
  pose proof (exp_pos (d * ln 2)) as Ed. fold (Rpower 2 d) in Ed. assert (R3 : 0 < Rpower 2 (3 / 119)) by apply exp_pos.
  replace (c / (3 * (c / (3 * k) * Rpower 2 d))) with (k / Rpower 2 d) by (field; lra).
  assert (D1 : Rpower 2 d <= Rpower 2 (3 / 119)) by (apply Rle_Rpower; lra).
  assert (D2 : / Rpower 2 (3 / 119) <= Rpower 2 d) by (rewrite <- Rpower_Ropp; apply Rle_Rpower; lra).
  set (r3 := Rpower 2 (3 / 119)) in *. clearbody r3. split; unfold Rdiv; apply Rmult_le_compat_l; try lra; [apply Rinv_le_contravar; lra|].
  rewrite <- (Rinv_inv r3). apply Rinv_le_contravar; [now apply Rinv_0_lt_compat|exact D2].
Qed.
Print Assumptions C93_resolution.
(** With 60 to 192 longitudes these include the wavenumbers 1 to 20. *)
Theorem C93_covers_partial : forall n k, (60 <= n <= 192)%nat -> (1 <= k <= 20)%nat ->
  exists m, (m < 120)%nat /\ INR k / Rpower 2 (3 / 119) <= wavenumber_of 1 n (scale_no m) <= INR k * Rpower 2 (3 / 119).
Proof.
  intros n k [N1 N2] [K1 K2]. apply C93_resolution; [lra|lia|]. unfold wavenumber_of. apply le_INR in N1, N2, K1, K2. rewrite !INR_IZR_INZ in *. cbn [Z.of_nat Pos.of_succ_nat Pos.succ] in *. lra.
Qed.
Print Assumptions C93_covers_partial.
(** On finer grids the longest waves are out of reach: with more than 192 k
    longitudes the result is larger than k for every field and every wavelet
    transform, for example larger than 3 with 0.5 degrees. *)
Theorem C93_long_waves_refuted :
  (exists g h, mk_grid (1 / 2) 1 0 None = Ok g /\ g_nlon g = (2 * h)%nat /\ (1 <= h)%nat /\ 192 * 3 < INR (g_nlon g))
  /\ forall W g f h smooth k, cwt_keeps_length W -> central_frequency W = 1 -> (1 <= h)%nat -> (0 < g_nlat g)%nat -> 0 < g_res g -> g_nlon g = (2 * h)%nat ->
     192 * k < INR (g_nlon g) ->
     shaped (g_nlat g) (g_nlon g) f -> match smooth with None => True | Some (_, wlon, wlat) => 0 <= wlon /\ 0 <= wlat end ->
     exists out, dominant_wavenumber_wavelet W f g smooth = Ok (A2 out) /\ shaped (g_nlat g) (g_nlon g) out
     /\ forall i j, (i < g_nlat g)%nat -> (j < g_nlon g)%nat -> k < mget out i j.
Proof.
  split.
  - eexists. exists (Z.to_nat 360). split; [apply (mk_grid_Ok (1 / 2) 1 0 720 360); lra || lia|]. cbn [g_nlon]. split; [lia|]. split; [lia|].
    rewrite INR_IZR_INZ, Z2Nat.id by lia. lra.
  - intros W g f h smooth k WL C H1 N Rp E K Sf Hs.
    destruct (C93_range W g f h smooth WL ltac:(lra) H1 N Rp E Sf Hs) as [out [Eo [So Q]]]. exists out. split; [exact Eo|]. split; [exact So|].
    intros i j Hi Hj. specialize (Q i j Hi Hj). unfold wavenumber_of in Q. rewrite C in Q. lra.
Qed.
Print Assumptions C93_long_waves_refuted.

Lemma unsmoothed_any W g f n x : cwt_keeps_length W -> (0 < g_nlat g)%nat -> (0 < n)%nat ->
  restrict_fourier_zonal f 0 20 = Ok x -> shaped (g_nlat g) n x ->
  dominant_wavenumber_wavelet W f g None = Ok (A2 (mat_of (g_nlat g) n (fun i j => nth (sel W n x i j) (wavenum W g) 0))).
Proof.
  intros WL N Nn Ex Sx. unfold dominant_wavenumber_wavelet. rewrite Ex. cbn [bind].
  rewrite (argmax_form W WL (g_nlat g) n x Sx N) by lia. cbn [bind]. do 2 f_equal. unfold mat_of. rewrite tab_map. apply tab_ext. intros i Hi. now rewrite tab_map.
Qed.
(** With an odd number of longitudes one column is lost and smoothing fails. *)
Theorem C93_odd_refuted : (exists g, mk_grid 72 1 0 None = Ok g /\ g_nlon g = 5%nat)
  /\ forall W g f h, cwt_keeps_length W -> (1 <= h)%nat -> (0 < g_nlat g)%nat -> 0 < g_res g -> g_nlon g = (2 * h + 1)%nat -> shaped (g_nlat g) (g_nlon g) f ->
  (exists out, dominant_wavenumber_wavelet W f g None = Ok (A2 out) /\ shaped (g_nlat g) (2 * h) out /\ ~ shaped (g_nlat g) (g_nlon g) out)
  /\ forall w wlon wlat, 0 <= wlon -> 0 <= wlat -> dominant_wavenumber_wavelet W f g (Some (w, wlon, wlat)) = Err AssertionError.
Proof.
  split; [eexists; split; [apply (mk_grid_Ok 72 1 0 5 2); lra || lia|reflexivity]|].
  intros W g f h WL H1 N Rp E Sf. destruct (restrict_odd_field h (g_nlat g) f 0 20 H1) as [x [Ex Sx]]; [now rewrite <- E|].
  pose proof (unsmoothed_any W g f (2 * h) x WL N ltac:(lia) Ex Sx) as U. split.
  - eexists. split; [exact U|]. split; [apply shaped_mat_of|]. intros S2.
    pose proof (shaped_row _ _ _ 0 [] (shaped_mat_of (g_nlat g) (2 * h) (fun i j => nth (sel W (2 * h) x i j) (wavenum W g) 0)) N) as L1.
    pose proof (shaped_row _ _ _ 0 [] S2 N) as L2. lia.
  - intros w wlon wlat Hlon Hlat. rewrite (smoothed W g f w wlon wlat _ U).
    assert (V : forall wd, 0 <= wd -> exists win, get_filter_window g w wd = Ok win).
    { intros wd Hw. apply C62_returns. apply Rle_trans with 0; [lra|]. unfold g_dlon, Rdiv. apply Rmult_le_pos; [exact Hw|]. now apply Rlt_le, Rinv_0_lt_compat. }
    destruct (V wlat Hlat) as [w1 E1]. destruct (V wlon Hlon) as [w2 E2].
    rewrite (C64_by_name g _ w wlat w1 E1). destruct (C64_columns g _ w1 (2 * h) (shaped_mat_of (g_nlat g) (2 * h) (fun i j => nth (sel W (2 * h) x i j) (wavenum W g) 0)) N) as [o [Eo [So _]]].
    rewrite Eo. cbn [bind]. rewrite (C63_by_name g _ w wlon w2 E2). apply (C63_rejected g w2). rewrite (shaped_ncols _ _ o So N). lia.
Qed.
Print Assumptions C93_odd_refuted.

(** Where the transform vanishes the result is the largest wavenumber, that of
    the smallest scale *)
Theorem C93_zero : forall W g f h i j, cwt_keeps_length W -> (1 <= h)%nat -> g_nlon g = (2 * h)%nat -> shaped (g_nlat g) (g_nlon g) f ->
  (forall n s, cwt_row W (repeat 0 n) s = repeat (0, 0) n) -> (i < g_nlat g)%nat -> (j < g_nlon g)%nat -> nth i f [] = repeat 0 (g_nlon g) ->
  exists out, dominant_wavenumber_wavelet W f g None = Ok (A2 out) /\ mget out i j = wavenumber_of (central_frequency W) (g_nlon g) 3.
Proof.
  intros W g f h i j WL H1 E Sf Z Hi Hj Fi. assert (N : (0 < g_nlat g)%nat) by lia.
  destruct (C93_dominant_partial W g f h WL H1 N E Sf) as [x [out [Eo [So [Sx [Cx Q]]]]]]. exists out. split; [exact Eo|].
  assert (Xi : nth i x [] = repeat 0 (g_nlon g)).
  { apply (C66_coefficients_determine h); [exact H1| |rewrite repeat_length; exact E|].
    - rewrite <- E. now apply (shaped_row (g_nlat g)).
    - intros k Hk. destruct (Cx i k Hi Hk) as [C1 C2]. rewrite Fi in C1.
      destruct (Nat.le_gt_cases k 20) as [K|K]; [apply C1, K|]. destruct (C2 K) as [-> ->].
      assert (Zr : forall l j, nth j (repeat 0 l) 0 = 0) by (induction l as [|l IH]; intros [|p]; cbn; auto).
      unfold cos_coeff, sin_coeff. split; symmetry; transitivity (INR (length (repeat 0 (g_nlon g))) * 0);
        try apply Rmult_0_r; rewrite <- Rsum_tab_const; f_equal; apply tab_ext; intros p _; rewrite Zr; ring. }
  destruct (Q i j Hi Hj) as [m [Hm [-> [_ M]]]]. destruct m as [|m].
  - f_equal. unfold scale_no. cbn [INR]. replace (6 * 0 / 119) with 0 by field. rewrite Rpower_O; lra.
  - exfalso. specialize (M 0%nat ltac:(lia)). rewrite Xi in M.
    assert (T : three_periods (repeat 0 (g_nlon g)) = repeat 0 (3 * g_nlon g)).
    { rewrite <- thrice, <- !repeat_app. f_equal. lia. }
    rewrite T, !Z in M. assert (Zr : forall l j, nth j (repeat (0, 0) l) (0, 0) = (0, 0)) by (induction l as [|l IH]; intros [|p]; cbn; auto).
    unfold power_at in M. rewrite !Zr in M. cbn in M. lra.
Qed.
Print Assumptions C93_zero.

(** A transform that responds at one scale only: a field of ones *)
Definition one_scale : pywt := mkPywt (fun x s => map (fun v => if Req_EM_T s (scale_no 40) then (0, v) else (v / 2, 0)) x) 1.
Example C93_nonvacuous : cwt_keeps_length one_scale /\ (1 <= 2)%nat /\ (0 < g_nlat (gridA 1))%nat /\ g_nlon (gridA 1) = (2 * 2)%nat
  /\ shaped (g_nlat (gridA 1)) (g_nlon (gridA 1)) (mat_of 3 4 (fun _ _ => 1)).
Proof. split; [intros x s; apply map_length|]. split; [lia|]. split; [cbn; lia|]. split; [reflexivity|]. apply (shaped_mat_of 3 4). Qed.
Lemma scale_inj m n : scale_no m = scale_no n -> m = n.
Proof.
  assert (I : forall m n, (m < n)%nat -> scale_no m < scale_no n).
  { intros a b L. unfold scale_no. apply lt_INR in L. assert (Rpower 2 (6 * INR a / 119) < Rpower 2 (6 * INR b / 119)) by (apply Rpower_lt; lra). lra. }
  intros E. destruct (Nat.lt_trichotomy m n) as [L|[L|L]]; [apply I in L; lra|exact L|apply I in L; lra].
Qed.
Example C93_example : exists out, dominant_wavenumber_wavelet one_scale (mat_of 3 4 (fun _ _ => 1)) (gridA 1) None = Ok (A2 out)
  /\ forall i j, (i < 3)%nat -> (j < 4)%nat -> mget out i j = 4 / scale_no 40.
Proof.
  destruct C93_nonvacuous as [WL [H1 [N [E S]]]].
  destruct (C93_dominant_partial one_scale (gridA 1) _ 2 WL H1 N E S) as [x [out [Eo [So [Sx [Cx Q]]]]]]. exists out. split; [exact Eo|].
  cbn [gridA g_nlat g_nlon] in *.
  assert (X : forall i, (i < 3)%nat -> nth i x [] = repeat 1 4).
  { intros i Hi. apply (C66_coefficients_determine 2); [lia| |reflexivity|]; [now apply (shaped_row 3 4)|].
    intros k Hk. destruct (Cx i k Hi Hk) as [C1 _]. specialize (C1 ltac:(lia)). unfold mat_of in C1. rewrite tab_nth in C1 by exact Hi. exact C1. }
  intros i j Hi Hj. destruct (Q i j Hi Hj) as [m [Hm [-> [M _]]]]. unfold wavenumber_of. cbn [central_frequency one_scale]. specialize (M 40%nat ltac:(lia)).
  rewrite (X i Hi) in M. unfold power_at in M. cbn [one_scale cwt_row] in M.
  assert (T : nth (4 + j) (three_periods (repeat 1 4)) 0 = 1).
  { unfold three_periods. cbn [repeat length]. rewrite tab_nth by (cbn; lia). destruct j as [|[|[|[|j]]]]; cbn; try reflexivity. lia. }
  assert (L3 : length (three_periods (repeat 1 4)) = 12%nat) by (unfold three_periods; rewrite tab_length; reflexivity).
  rewrite !(nth_map_lt _ _ _ 0 _) in M by (rewrite L3; lia). rewrite !T in M.
  destruct (Req_EM_T (scale_no 40) (scale_no 40)) as [_|]; [|congruence]. cbn [fst snd] in M.
  destruct (Req_EM_T (scale_no m) (scale_no 40)) as [Em|Em]; cbn [fst snd] in M; [rewrite Em; cbn [INR]; field; pose proof (scale_pos 40); lra|lra].
Qed.
