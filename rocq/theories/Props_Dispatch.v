(** Diagnostics of a State and of its fields: C120. *)
From Coq Require Export String.
From Verif Require Import Base Model_Grid Model_Time Model_Spectral Model_State Spec_Grid Spec_Spectral Spec_State Spec_Instance.
From Verif Require Import Proofs_Base Proofs_Grid Proofs_Spectral Proofs_Instance Proofs_State Props_Symmetry.
From Verif Require Import Spec_Deriv Proofs_Deriv Model_Falwa Model_Ks Spec_Ks Proofs_Ks Props_Ks Model_Dispatch Model_Region.
From Coq Require Import List Lia Lra.
Import ListNotations.
Open Scope R_scope.

(** ** C120 *)
(** Wave activity of a State is that of its PV on its grid; the State's own
    stationary wavenumber is the function's default. *)
Theorem C120_state : forall K T (s : state K) levels qd,
  diag_falwa T (InState s) levels qd = diag_falwa (K := K) T (InArray (s_pv T s) (Some (s_grid s))) levels qd
  /\ diag_fawa T (InState s) levels qd = diag_fawa (K := K) T (InArray (s_pv T s) (Some (s_grid s))) levels qd
  /\ diag_stationary_wavenumber T (InState s) (ONum 4) (/ 1000) "complex" = state_stationary_wavenumber T s.
Proof. intros. split; [reflexivity|]. split; reflexivity. Qed.
Print Assumptions C120_state.
(** Arrays without a grid are rejected. *)
Theorem C120_no_grid : forall K T m a levels qd order min_u kind,
  diag_falwa (K := K) T (InArray m None) levels qd = Err AttributeError
  /\ diag_fawa (K := K) T (InArray m None) levels qd = Err AttributeError
  /\ diag_stationary_wavenumber (K := K) T (InArray a None) order min_u kind = Err AttributeError.
Proof. intros. split; [reflexivity|]. split; reflexivity. Qed.
Print Assumptions C120_no_grid.

(** largest sum of the absolute values of the coefficients of a difference
    formula, divided by its denominator *)
Definition amplification (o : oo) : R := match o with O2 => 1 | O4 => 19 / 6 end.
Lemma derivative_close g o a v w dv' dw eps : denotes a o -> (S (ord o) <= g_nlat g)%nat -> length v = g_nlat g -> length w = g_nlat g -> 0 < Rabs (g_dphi g) ->
  derivative_meridional g (A1 v) a = Ok (A1 dv') -> derivative_meridional g (A1 w) a = Ok (A1 dw) ->
  (forall i, (i < g_nlat g)%nat -> Rabs (nth i v 0 - nth i w 0) <= eps) ->
  forall i, (i < g_nlat g)%nat -> Rabs (nth i dv' 0 - nth i dw 0) <= amplification o * eps / Rabs (g_dphi g).
Proof.
  intros Hd Hn Lv Lw Pd Ev Ew H i Hi. rewrite (dm_1d g o a v Hd Hn Lv) in Ev. rewrite (dm_1d g o a w Hd Hn Lw) in Ew. injection Ev as <-. injection Ew as <-. rewrite !tab_nth by assumption.
  assert (E0 : 0 <= eps). { eapply Rle_trans; [apply Rabs_pos|apply (H i Hi)]. }
  assert (HB : forall j, (j < g_nlat g)%nat -> - eps <= nth j v 0 - nth j w 0 <= eps). { intros j Hj. specialize (H j Hj). unfold Rabs in H. destruct (Rcase_abs _) in H; lra. }
  set (n := g_nlat g) in *.
  assert (B : Rabs ((if is_pole n i then 0 else st o n (fun k => nth k v 0) i) / dv o - (if is_pole n i then 0 else st o n (fun k => nth k w 0) i) / dv o) <= amplification o * eps).
  { destruct (is_pole n i) eqn:EP.
    - unfold Rminus. rewrite Rplus_opp_r, Rabs_R0. destruct o; cbn [amplification]; lra.
    - unfold is_pole in EP. apply Bool.orb_false_iff in EP. destruct EP as [P0 P1]. apply Nat.eqb_neq in P0, P1. apply Rabs_le.
      destruct o; cbn [st dv amplification ord] in *.
      + unfold stencil2. destruct (Nat.eqb_spec i 0), (Nat.eqb_spec i (n - 1)); try lia. pose proof (HB (i + 1)%nat ltac:(lia)). pose proof (HB (i - 1)%nat ltac:(lia)). lra.
      + unfold stencil4. destruct (Nat.eqb_spec i 0), (Nat.eqb_spec i (n - 1)); try lia. destruct (Nat.eqb_spec i 1); [|destruct (Nat.eqb_spec i (n - 2))].
        * pose proof (HB 0%nat ltac:(lia)). pose proof (HB 1%nat ltac:(lia)). pose proof (HB 2%nat ltac:(lia)). pose proof (HB 3%nat ltac:(lia)). pose proof (HB 4%nat ltac:(lia)). lra.
        * pose proof (HB (n - 5)%nat ltac:(lia)). pose proof (HB (n - 4)%nat ltac:(lia)). pose proof (HB (n - 3)%nat ltac:(lia)). pose proof (HB (n - 2)%nat ltac:(lia)). pose proof (HB (n - 1)%nat ltac:(lia)). lra.
        * pose proof (HB (i - 2)%nat ltac:(lia)). pose proof (HB (i - 1)%nat ltac:(lia)). pose proof (HB (i + 1)%nat ltac:(lia)). pose proof (HB (i + 2)%nat ltac:(lia)). lra. }
  assert (ND : g_dphi g <> 0). { intros E. rewrite E, Rabs_R0 in Pd. lra. }
  match goal with |- Rabs (?x / _ - ?y / _) <= _ => replace (x / g_dphi g - y / g_dphi g) with ((x - y) * / g_dphi g) by (unfold Rdiv; ring) end.
  rewrite Rabs_mult, Rabs_inv. unfold Rdiv at 3. apply Rmult_le_compat_r; [|exact B]. left. now apply Rinv_0_lt_compat.
Qed.

(** The stationary wavenumber of a State uses the State's PV, that of its wind on
    its grid a PV profile from differences of the wind (C72_wind_only).  Wherever
    the wind exceeds the threshold, profiles of PV that differ by at most eps have
    squared wavenumbers that differ by at most a multiple of eps. *)
Theorem C120_sensitivity_partial : forall res rs om nt g o order u u1 pv pw q w min_u eps, mk_grid res rs om nt = Ok g ->
  denotes order o -> (S (ord o) <= g_nlat g)%nat -> 0 <= min_u ->
  profile_of g u u1 -> profile_of g pv q -> profile_of g pw w ->
  (forall i, (i < g_nlat g)%nat -> Rabs (nth i q 0 - nth i w 0) <= eps) ->
  exists a b, stationary_wavenumber g u (Some pv) order min_u "squared" = Ok (KsReal a)
    /\ stationary_wavenumber g u (Some pw) order min_u "squared" = Ok (KsReal b)
    /\ forall i, (i < g_nlat g)%nat -> min_u < Rabs (nth i u1 0) -> exists x y, nth i a NaN = Fin x /\ nth i b NaN = Fin y
         /\ Rabs (x - y) <= rs * (cos (nth i (g_phi g) 0)) ^ 2 * (amplification o * eps / Rabs (g_dphi g)) / Rabs (nth i u1 0).
Proof.
  intros res rs om nt g o order u u1 pv pw q w min_u eps Hg Hd Hn Hm Hu Hq Hw H.
  pose proof (dphi_ne _ _ _ _ _ Hg) as ND. assert (PD : 0 < Rabs (g_dphi g)) by now apply Rabs_pos_lt.
  pose proof (gf_rs_pos _ _ _ _ (mk_grid_facts _ _ _ _ _ Hg)) as Rs.
  assert (EQ := dm_1d g o order q Hd Hn (proj1 Hq)). assert (EW := dm_1d g o order w Hd Hn (proj1 Hw)).
  destruct (C72_squared _ _ _ _ _ _ _ _ _ _ _ _ _ Hg Hd Hn Hm Hu Hq EQ) as [a [Ea [_ [_ [_ Ha]]]]].
  destruct (C72_squared _ _ _ _ _ _ _ _ _ _ _ _ _ Hg Hd Hn Hm Hu Hw EW) as [b [Eb [_ [_ [_ Hb]]]]].
  exists a, b. split; [exact Ea|]. split; [exact Eb|]. intros i Hi Ui.
  pose proof (derivative_close g o order q w _ _ eps Hd Hn (proj1 Hq) (proj1 Hw) PD EQ EW H i Hi) as D.
  rewrite (proj1 (Ha i Hi) Ui), (proj1 (Hb i Hi) Ui). do 2 eexists. split; [reflexivity|]. split; [reflexivity|].
  assert (Pu : 0 < Rabs (nth i u1 0)) by lra.
  match goal with |- Rabs (_ * _ * ?x / _ - _ * _ * ?y / _) <= _ => set (X := x) in *; set (Y := y) in * end.
  set (c := (cos (nth i (g_phi g) 0)) ^ 2). assert (C0 : 0 <= c) by (unfold c; apply pow2_ge_0).
  replace (rs * c * X / nth i u1 0 - rs * c * Y / nth i u1 0) with (rs * c * (X - Y) * / nth i u1 0) by (unfold Rdiv; ring).
  rewrite Rabs_mult, Rabs_inv, Rabs_mult, (Rabs_pos_eq (rs * c)) by (apply Rmult_le_pos; lra).
  unfold Rdiv at 1. apply Rmult_le_compat_r; [left; now apply Rinv_0_lt_compat|]. apply Rmult_le_compat_l; [apply Rmult_le_pos; lra|exact D].
Qed.
Print Assumptions C120_sensitivity_partial.

Lemma zonal_example_fields : (forall i j, (i < 3)%nat -> (j < 4)%nat -> mget (s_pv d1_family zonal_example) i j = 3 - INR i)
  /\ (forall i j, (i < 3)%nat -> (j < 4)%nat -> mget (s_u d1_family zonal_example) i j = - (1 / 2) * d1_cphi i).
Proof.
  split; intros i j Hi Hj.
  - unfold s_pv, zonal_example, to_grid, to_spectral, sph, d1_family, d1_grid. cbn [s_grid s_pvs g_nlat g_nlon g_rsphere g_ntrunc sh_grdtospec sh_spectogrd].
    unfold d1_synthesis. rewrite mget_mat_of by assumption. unfold d1_analysis, row_mean, row_cos, row_sin, zonal_pv. rewrite !mget_mat_of by lia. unfold d1_sphi, d1_cphi, d1_clam, d1_slam, coef.
    destruct i as [|[|[|i]]]; [..|lia]; destruct j as [|[|[|[|j]]]]; try lia; cbn; field.
  - unfold s_u, s_invert_pv, s_vorticity_spectral, zonal_example. cbn [s_grid s_pvs].
    unfold to_spectral, fcor2_spectral, to_spectral, wind, sph, d1_family, d1_grid. cbn [g_nlat g_nlon g_rsphere g_ntrunc sh_grdtospec sh_getuv as_spectral].
    assert (F : forall i j, (i < 3)%nat -> (j < 4)%nat -> mget (g_fcor2 (d1_grid 1 1)) i j = 2 * d1_sphi i).
    { clear. intros i j Hi Hj. rewrite fcor2_grid by (cbn; assumption). rewrite lat_nth by (cbn; assumption). unfold coriolis, deg2rad. cbn [d1_grid g_omega g_nlat Nat.sub].
      destruct i as [|[|[|i]]]; [..|lia]; unfold d1_sphi; cbn [nth].
      - match goal with |- context [sin ?a] => replace a with (PI / 2) by (cbn; field) end. rewrite sin_PI2. ring.
      - match goal with |- context [sin ?a] => replace a with 0 by (cbn; field) end. rewrite sin_0. ring.
      - match goal with |- context [sin ?a] => replace a with (- (PI / 2)) by (cbn; field) end. rewrite sin_neg, sin_PI2. ring. }
    fold (d1_grid 1 1). unfold d1_getuv. cbn [fst]. rewrite mget_mat_of by assumption. rewrite szeros_repeat, !coef_zero.
    unfold d1_analysis, row_mean, row_cos, row_sin. rewrite !F by lia. unfold zonal_pv. rewrite !mget_mat_of by lia. unfold d1_sphi, d1_cphi, d1_clam, d1_slam, coef.
    destruct i as [|[|[|i]]]; [..|lia]; destruct j as [|[|[|[|j]]]]; try lia; cbn; field.
Qed.

Lemma zonal_example_profiles : profile_of (d1_grid 1 1) (A2 (s_u d1_family zonal_example)) [0; - (1 / 2); 0]
  /\ profile_of (d1_grid 1 1) (A2 (s_pv d1_family zonal_example)) [3; 2; 1].
Proof.
  destruct zonal_example_fields as [HP HU].
  assert (S : forall m, shaped 3 4 m -> forall i, (i < 3)%nat -> Rsum (nth i m nil) = mget m i 0 + (mget m i 1 + (mget m i 2 + mget m i 3))).
  { intros m [L F] i Hi. assert (E : length (nth i m nil) = 4%nat) by (rewrite Forall_forall in F; apply F, nth_In; lia).
    unfold mget. destruct (nth i m nil) as [|a [|b [|c [|d [|e l]]]]]; try discriminate. cbn. ring. }
  assert (SU : shaped 3 4 (s_u d1_family zonal_example)) by (apply shaped_mat_of).
  assert (SP : shaped 3 4 (s_pv d1_family zonal_example)) by (apply shaped_mat_of).
  split; (split; [reflexivity|right; eexists; split; [reflexivity|]; split; [assumption|]]); intros i Hi; cbn [d1_grid g_nlat g_nlon] in *.
  - rewrite (S _ SU i Hi), !HU by lia. destruct i as [|[|[|i]]]; [..|lia]; unfold d1_cphi; cbn; field.
  - rewrite (S _ SP i Hi), !HP by lia. destruct i as [|[|[|i]]]; [..|lia]; cbn; field.
Qed.

(** A State does not have the stationary wavenumber of its zonal wind on its
    grid: -4/pi and -8/pi at the equator. *)
Theorem C120_ks_refuted : exists a b,
  diag_stationary_wavenumber d1_family (InState zonal_example) (ONum 2) 0 "squared" = Ok (KsReal a)
  /\ diag_stationary_wavenumber (K := numR) d1_family (InArray (A2 (s_u d1_family zonal_example)) (Some (s_grid zonal_example))) (ONum 2) 0 "squared" = Ok (KsReal b)
  /\ nth 1 a NaN = Fin (- (4 / PI)) /\ nth 1 b NaN = Fin (- (8 / PI)) /\ a <> b.
Proof.
  assert (Hg := d1_grid_ok 1 1 ltac:(lra)). destruct zonal_example_profiles as [PU PP]. pose proof PI_RGT_0 as PI0.
  assert (Hd : denotes (ONum 2) O2) by (cbn; auto). assert (Hn : (S (ord O2) <= g_nlat (d1_grid 1 1))%nat) by (cbn; lia).
  assert (Lu : length (map2 Rmult [0; - (1 / 2); 0] (map np_cosd (g_lat (d1_grid 1 1)))) = g_nlat (d1_grid 1 1)) by reflexivity.
  destruct (C72_wind_only _ _ _ _ _ _ _ _ _ _ Hg Hd Hn PU (dm_1d (d1_grid 1 1) O2 _ _ Hd Hn Lu)) as [w [EW [Lw [W0 [W2 _]]]]].
  assert (PW : profile_of (d1_grid 1 1) (A1 w) w) by (split; [exact Lw|now left]).
  destruct (C72_squared _ _ _ _ _ _ _ _ _ _ _ _ _ Hg Hd Hn (Rle_refl 0) PU PP (dm_1d (d1_grid 1 1) O2 _ _ Hd Hn (proj1 PP))) as [a [Ea [_ [_ [_ Ha]]]]].
  destruct (C72_squared _ _ _ _ _ _ _ _ _ _ _ _ _ Hg Hd Hn (Rle_refl 0) PU PW (dm_1d (d1_grid 1 1) O2 _ _ Hd Hn Lw)) as [b [Eb [_ [_ [_ Hb]]]]].
  assert (U1 : 0 < Rabs (nth 1 [0; - (1 / 2); 0] 0)) by (apply Rabs_pos_lt; cbn; lra).
  assert (P1 : nth 1 (g_phi (d1_grid 1 1)) 0 = 0). { rewrite phi_nth by (cbn; lia). rewrite lat_nth by (cbn; lia). unfold deg2rad. cbn. field. }
  assert (DP : g_dphi (d1_grid 1 1) = - (PI / 2)) by (unfold g_dphi, g_dlat, deg2rad; cbn; field).
  pose proof (proj1 (Ha 1%nat ltac:(cbn; lia)) U1) as A1'. pose proof (proj1 (Hb 1%nat ltac:(cbn; lia)) U1) as B1.
  rewrite tab_nth, P1, cos_0, DP in A1', B1 by (cbn; lia).
  cbn [d1_grid g_nlat is_pole Nat.eqb Nat.sub orb st stencil2 dv nth Nat.add] in A1', B1. cbn [d1_grid g_nlat Nat.sub] in W2. rewrite W0, W2 in B1.
  assert (Na : nth 1 a NaN = Fin (- (4 / PI))) by (rewrite A1'; f_equal; field; lra).
  assert (Nb : nth 1 b NaN = Fin (- (8 / PI))) by (rewrite B1; f_equal; field; lra).
  exists a, b. split; [exact Ea|]. split; [unfold diag_stationary_wavenumber; cbn [get_grid_vars bind fst snd]; change (s_grid zonal_example) with (d1_grid 1 1); rewrite EW; exact Eb|].
  split; [exact Na|]. split; [exact Nb|]. intros E. rewrite E, Nb in Na. injection Na as Q. apply (Rinv_neq_0_compat PI); [lra|]. unfold Rdiv in Q. lra.
Qed.
Print Assumptions C120_ks_refuted.

(** The State above meets the hypotheses of the estimate with its own PV and with
    a PV that differs by at most 1. *)
Example C120_nonvacuous : mk_grid 90 1 1 (Some 1%Z) = Ok (d1_grid 1 1) /\ denotes (ONum 2) O2 /\ (S (ord O2) <= g_nlat (d1_grid 1 1))%nat
  /\ profile_of (d1_grid 1 1) (A2 (s_u d1_family zonal_example)) [0; - (1 / 2); 0] /\ profile_of (d1_grid 1 1) (A2 (s_pv d1_family zonal_example)) [3; 2; 1]
  /\ profile_of (d1_grid 1 1) (A1 [2; 2; 1]) [2; 2; 1]
  /\ (forall i, (i < 3)%nat -> Rabs (nth i [3; 2; 1] 0 - nth i [2; 2; 1] 0) <= 1)
  /\ 1 / 1000 < Rabs (nth 1 [0; - (1 / 2); 0] 0).
Proof.
  split; [apply d1_grid_ok; lra|]. split; [cbn; auto|]. split; [cbn; lia|]. split; [apply zonal_example_profiles|]. split; [apply zonal_example_profiles|].
  split; [split; [reflexivity|now left]|]. split.
  - intros i Hi. destruct i as [|[|[|i]]]; [..|lia]; cbn; apply Rabs_le; lra.
  - cbn. rewrite Rabs_left by lra. lra.
Qed.
