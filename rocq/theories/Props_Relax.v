(** C116: relaxation of the flow towards its reference. *)
From Coq Require Export String.
From Verif Require Import Base Model_Grid Model_Time Model_Spectral Model_State Model_Run Model_RHS.
From Verif Require Import Spec_Grid Spec_Spectral Spec_State Spec_Instance Spec_Run Spec_RHS Spec_Calculus Spec_Sym Spec_Symmetry Spec_Relax.
From Verif Require Import Proofs_Elapsed.
From Verif Require Import Proofs_Base Proofs_Grid Proofs_Spectral Proofs_Instance Proofs_State Proofs_Run Proofs_Step Proofs_RHS Proofs_Orog Proofs_Calculus Proofs_Sym Proofs_Symmetry Proofs_SymInst Proofs_Times Proofs_Relax.
From Verif Require Import Props_Run Props_Symmetry.
From Coquelicot Require Import Complex.
From Coq Require Import List Lia Lra.
Import ListNotations.
Open Scope R_scope.

Lemma timed_clock (init : state numR) dt h : timed init dt h -> exists tm, clock init dt tm /\ to_seconds dt = Ok h.
Proof.
  intros [t0 E -> |d us E -> -> |t us E -> ->].
  - exists (fun n => @VNum numR (t0 + INR n * h)). split; [now apply clock_R|reflexivity].
  - exists (fun n => VDate (d + Z.of_nat n * us)). split; [now apply clock_date|reflexivity].
  - exists (fun n => VDelta (t + Z.of_nat n * us)). split; [now apply clock_delta|reflexivity].
Qed.
Lemma plain_on_grid {K} T g (s : state K) : on_grid T g s -> plain T g (s_pvs s).
Proof. intros [_ [L R]]. now split. Qed.

(** The global mean of the PV of any state, advected or not, relaxes to that of
    the reference if the rate times the step is below 1/3 *)
Theorem C116_mean : forall res rs om nt g T, mk_grid res rs om nt = Ok g -> exact_on T g -> resolved_divergence T g ->
  forall (M : bmodel numR) init dt h rate ref, timed init dt h -> 0 < h -> on_grid T g init ->
  shaped (g_nlat g) (g_nlon g) ref -> m_rhs M = Some (call T (PRelax rate (FMat ref))) ->
  (forall bg, m_bg M = Some bg -> shaped (g_nlat g) (g_nlon g) bg) ->
  m_coeff M = 0 \/ calculus_on T g /\ 0 <= m_coeff M /\ (1 <= m_order M)%nat ->
  0 < rate * h < 1 / 3 -> approaches T M init dt ref 0.
Proof.
  intros res rs om nt g T Hg H HF M init dt h rate ref HT Hh OG HS HM HB HD [R0 R1]. destruct (timed_clock _ _ _ HT) as [tm [HC HE]].
  apply (mean_approaches res rs om nt T g Hg H M init dt tm h rate ref); auto using plain_on_grid. apply OG.
Qed.
Print Assumptions C116_mean.

(** A zonal flow relaxes to a zonal reference in every coefficient, whether or not
    there is diffusion towards the reference *)
Theorem C116_zonal : forall res rs om nt g T, mk_grid res rs om nt = Ok g -> exact_on T g -> rotates T g -> reverses T g ->
  forall (M : bmodel numR) init dt h rate f ref, timed init dt h -> 0 < h ->
  zonally_uniform (g_nlat g) (g_nlon g) f -> s_grid init = g -> s_pvs init = to_spectral T g f ->
  zonally_uniform (g_nlat g) (g_nlon g) ref -> m_rhs M = Some (call T (PRelax rate (FMat ref))) ->
  m_coeff M = 0 \/ calculus_on T g /\ 0 <= m_coeff M /\ m_bg M = Some ref ->
  0 < rate * h < 1 / 3 -> forall k, (k < nspec (g_ntrunc g))%nat -> approaches T M init dt ref k.
Proof.
  intros res rs om nt g T Hg H HR HV M init dt h rate f ref HT Hh Uf G E Ur HM HD [R0 R1] k Hk. destruct (timed_clock _ _ _ HT) as [tm [HC HE]].
  destruct (mk_grid_counts _ _ _ _ _ Hg) as [Hn _].
  apply (zonal_approaches res rs om nt T g Hg H M init dt tm h rate ref); auto; try apply Ur.
  - rewrite E. apply plain_field; [exact H|apply Uf].
  - exact (zonal_init T g Hn HR f init Uf E G).
Qed.
Print Assumptions C116_zonal.

(** Final states of sufficiently long integrations are as close to the reference
    as desired *)
Theorem C116_run : forall T (M : bmodel numR) init t0 h ref k, s_time init = @VNum numR t0 -> 0 < h ->
  approaches T M init (@VNum numR h) ref k ->
  forall eps, 0 < eps -> exists late, forall fuel tend se f r, late <= tend ->
  run T M fuel init (@VNum numR h) (@VNum numR tend) se = Ok (f, r) -> distance_to T ref k f <= eps.
Proof.
  intros T M init t0 h ref k E Hh HA eps He. destruct (HA eps He) as [n0 Hn]. pose proof (pos_INR n0).
  exists (t0 + INR n0 * h). intros fuel tend se f r HL HR.
  destruct (C30_stops_numbers _ _ _ _ _ _ _ _ _ _ E HR) as [n [Tn [_ [L _]]]]; [nra|].
  assert (n0 <= n)%nat. { apply INR_le. nra. }
  destruct (Hn n H0) as [s [Ts D]]. now rewrite (traj_fun _ _ _ _ _ _ _ Tn Ts).
Qed.
Print Assumptions C116_run.

(** The bound 1/3 is sharp: at and above it integrations without diffusion end up
    away from the reference *)
Theorem C116_threshold : forall res rs om nt g T, mk_grid res rs om nt = Ok g -> exact_on T g -> rotates T g -> reverses T g ->
  forall (M : bmodel numR) init dt h rate f ref, timed init dt h -> 0 < h ->
  zonally_uniform (g_nlat g) (g_nlon g) f -> s_grid init = g -> s_pvs init = to_spectral T g f ->
  zonally_uniform (g_nlat g) (g_nlon g) ref -> m_rhs M = Some (call T (PRelax rate (FMat ref))) -> m_coeff M = 0 ->
  1 / 3 <= rate * h -> rate * h <> 3 / 2 ->
  forall k, (k < nspec (g_ntrunc g))%nat -> coef (to_spectral T g f) k <> coef (to_spectral T g ref) k -> stays_away T M init dt ref k.
Proof.
  intros res rs om nt g T Hg H HR HV M init dt h rate f ref HT Hh Uf G E Ur HM HD R0 R1 k Hk D. destruct (timed_clock _ _ _ HT) as [tm [HC HE]].
  destruct (mk_grid_counts _ _ _ _ _ Hg) as [Hn _].
  apply (zonal_away res rs om nt T g Hg H M init dt tm h rate ref); auto; try apply Ur.
  - rewrite E. apply plain_field; [exact H|apply Uf].
  - exact (zonal_init T g Hn HR f init Uf E G).
  - now rewrite E.
Qed.
Print Assumptions C116_threshold.

(** The exception: the growing mode of the unfiltered states is invisible in the
    filtered ones, which are those returned *)
Theorem C116_exception : forall res rs om nt g T, mk_grid res rs om nt = Ok g -> exact_on T g -> rotates T g -> reverses T g ->
  forall (M : bmodel numR) init dt h rate f ref, timed init dt h -> 0 < h ->
  zonally_uniform (g_nlat g) (g_nlon g) f -> s_grid init = g -> s_pvs init = to_spectral T g f ->
  zonally_uniform (g_nlat g) (g_nlon g) ref -> m_rhs M = Some (call T (PRelax rate (FMat ref))) -> m_coeff M = 0 ->
  rate * h = 3 / 2 -> forall k, (k < nspec (g_ntrunc g))%nat -> approaches T M init dt ref k.
Proof.
  intros res rs om nt g T Hg H HR HV M init dt h rate f ref HT Hh Uf G E Ur HM HD R0 k Hk. destruct (timed_clock _ _ _ HT) as [tm [HC HE]].
  destruct (mk_grid_counts _ _ _ _ _ Hg) as [Hn _].
  apply (zonal_exception res rs om nt T g Hg H M init dt tm h rate ref); auto; try apply Ur.
  - rewrite E. apply plain_field; [exact H|apply Uf].
  - exact (zonal_init T g Hn HR f init Uf E G).
Qed.
Print Assumptions C116_exception.

Theorem C116_threshold_mean : forall res rs om nt g T, mk_grid res rs om nt = Ok g -> exact_on T g -> resolved_divergence T g ->
  forall (M : bmodel numR) init dt h rate ref, timed init dt h -> 0 < h -> on_grid T g init ->
  shaped (g_nlat g) (g_nlon g) ref -> m_rhs M = Some (call T (PRelax rate (FMat ref))) ->
  (forall bg, m_bg M = Some bg -> shaped (g_nlat g) (g_nlon g) bg) -> m_coeff M = 0 ->
  1 / 3 <= rate * h -> rate * h <> 3 / 2 -> coef (s_pvs init) 0 <> coef (to_spectral T g ref) 0 -> stays_away T M init dt ref 0.
Proof.
  intros res rs om nt g T Hg H HF M init dt h rate ref HT Hh OG HS HM HB HD R0 R1 D. destruct (timed_clock _ _ _ HT) as [tm [HC HE]].
  apply (mean_away res rs om nt T g Hg H M init dt tm h rate ref); auto using plain_on_grid. apply OG.
Qed.
Print Assumptions C116_threshold_mean.

(** Diffusion alone brings zonal flow to the background, whatever the step ... *)
Theorem C117_background : forall res rs om nt g T, mk_grid res rs om nt = Ok g -> exact_on T g -> calculus_on T g -> rotates T g -> reverses T g ->
  forall (M : bmodel numR) init dt h f bg, timed init dt h -> 0 < h ->
  zonally_uniform (g_nlat g) (g_nlon g) f -> s_grid init = g -> s_pvs init = to_spectral T g f ->
  m_rhs M = None -> m_bg M = Some bg -> zonally_uniform (g_nlat g) (g_nlon g) bg -> 0 < m_coeff M ->
  forall k, (0 < k < nspec (g_ntrunc g))%nat -> approaches T M init dt bg k.
Proof.
  intros res rs om nt g T Hg H HK HR HV M init dt h f bg HT Hh Uf G E HM HB Ub HP k Hk. destruct (timed_clock _ _ _ HT) as [tm [HC HE]].
  destruct (mk_grid_counts _ _ _ _ _ Hg) as [Hn _].
  apply (zonal_diffuses res rs om nt T g Hg H M init dt tm h 0 bg); auto; try apply Ub; try lia.
  - rewrite E. apply plain_field; [exact H|apply Uf].
  - exact (zonal_init T g Hn HR f init Uf E G).
  - left. apply degree_pos; lia.
Qed.
Print Assumptions C117_background.

(** ... and without background to the uniform PV with the same mean *)
Theorem C117_uniform : forall res rs om nt g T, mk_grid res rs om nt = Ok g -> exact_on T g -> calculus_on T g -> rotates T g -> reverses T g ->
  forall (M : bmodel numR) init dt h f q, timed init dt h -> 0 < h ->
  zonally_uniform (g_nlat g) (g_nlon g) f -> s_grid init = g -> s_pvs init = to_spectral T g f ->
  m_rhs M = None -> m_bg M = None -> 0 < m_coeff M -> (1 <= m_order M)%nat ->
  coef (to_spectral T g (mat_of (g_nlat g) (g_nlon g) (fun _ _ => q))) 0 = coef (s_pvs init) 0 ->
  forall k, (k < nspec (g_ntrunc g))%nat -> approaches T M init dt (mat_of (g_nlat g) (g_nlon g) (fun _ _ => q)) k.
Proof.
  intros res rs om nt g T Hg H HK HR HV M init dt h f q HT Hh Uf G E HM HB HP HO HQ k Hk. destruct (timed_clock _ _ _ HT) as [tm [HC HE]].
  destruct (mk_grid_counts _ _ _ _ _ Hg) as [Hn [Hl _]].
  assert (U : zonally_uniform (g_nlat g) (g_nlon g) (mat_of (g_nlat g) (g_nlon g) (fun _ _ => q))).
  { split; [apply shaped_mat_of|]. intros i j Hi Hj. rewrite !mget_mat_of; auto. }
  destruct (Nat.eq_dec k 0) as [->|K0].
  - intros eps He. exists 0%nat. intros n _. destruct (clock_ok T M init dt tm HC n) as [[s new] HS]; [unfold forcing_ok; now rewrite HM|].
    exists s. split; [now exists new|]. unfold distance_to. destruct (steps_grid _ _ _ _ _ _ _ HS) as [GS _]. rewrite GS, G, HQ.
    rewrite (C34_every_step _ _ _ H _ _ _ _ Hg M init dt n s HM HO G); [|rewrite E; apply (A_len T g H)|now exists new].
    replace (_ - _)%C with (RtoC 0) by ring. rewrite Cmod_0. lra.
  - apply (zonal_diffuses res rs om nt T g Hg H M init dt tm h 0); auto; try apply U.
    + rewrite E. apply plain_field; [exact H|apply Uf].
    + exact (zonal_init T g Hn HR f init Uf E G).
    + right. split; [exact HB|]. unfold to_spectral. destruct (et_constant_field _ _ _ _ H q) as [m ->]. destruct k; [lia|]. exact (coef_zero _ _).
    + left. apply degree_pos; lia.
Qed.
Print Assumptions C117_uniform.

(** a zonal jet relaxed with a tenth of the difference per step comes to rest, with
    the whole difference per step it does not *)
Lemma d1_divergence rs om : 0 < rs -> resolved_divergence d1_family (d1_grid rs om).
Proof.
  intros Hr u v Su Sv. pose proof (d1_exact rs om Hr) as HE. pose proof (d1_reverses rs om) as HV.
  change (d1_analysis (d1_synthesis (snd (sh_getvrtdivspec (sph d1_family (d1_grid rs om)) u v 1))) 1 = snd (sh_getvrtdivspec (sph d1_family (d1_grid rs om)) u v 1)).
  apply d1_resolved; [apply (et_vrtdiv_len _ _ _ _ HE)|]. split; apply (rv_real _ _ _ _ HV); reflexivity.
Qed.
Definition relaxing (rate : R) : bmodel numR := mkModel (Some (call d1_family (PRelax rate (FMat (mat_of 3 4 (fun _ _ => 0)))))) 2 0 None.
Example C116_nonvacuous :
  (forall k, (k < 3)%nat -> approaches d1_family (relaxing (1 / 10)) zonal_example (@VNum numR 1) (mat_of 3 4 (fun _ _ => 0)) k)
  /\ approaches d1_family (relaxing (1 / 10)) zonal_example (@VNum numR 1) (mat_of 3 4 (fun _ _ => 0)) 0
  /\ stays_away d1_family (relaxing 1) zonal_example (@VNum numR 1) (mat_of 3 4 (fun _ _ => 0)) 0
  /\ distance_to d1_family (mat_of 3 4 (fun _ _ => 0)) 0 zonal_example > 0
  /\ calculus_on d1_family (d1_grid 1 1) /\ resolved_divergence d1_family (d1_grid 1 1).
Proof.
  assert (Hg := d1_grid_ok 1 1 ltac:(lra)). assert (HE := d1_exact 1 1 ltac:(lra)). assert (HR := d1_rotates 1 1). assert (HV := d1_reverses 1 1).
  assert (HD := d1_divergence 1 1 ltac:(lra)). assert (HC := d1_calculus 1 1 ltac:(lra)).
  assert (U : zonally_uniform 3 4 zonal_pv). { split; [apply shaped_mat_of|]. intros i j Hi Hj. unfold zonal_pv. rewrite !mget_mat_of; auto; lia. }
  assert (UZ : zonally_uniform 3 4 (mat_of 3 4 (fun _ _ => 0))). { split; [apply shaped_mat_of|]. intros i j Hi Hj. rewrite !mget_mat_of; auto; lia. }
  assert (TT : timed zonal_example (@VNum numR 1) 1) by (apply (timed_numbers zonal_example (@VNum numR 1) 1 100); reflexivity).
  assert (OG : on_grid d1_family (d1_grid 1 1) zonal_example).
  { split; [reflexivity|]. split; [apply (A_len _ _ HE)|]. apply (A_resolved _ _ HE). apply U. }
  assert (ZR : to_spectral d1_family (d1_grid 1 1) (mat_of 3 4 (fun _ _ => 0)) = repeat (RtoC 0) 3) by exact (analysis_zero _ _ HE).
  assert (C0 : coef (to_spectral d1_family (d1_grid 1 1) zonal_pv) 0 <> RtoC 0).
  { unfold to_spectral, sph, d1_family, d1_grid, zonal_pv. cbn [g_nlat g_nlon g_rsphere g_ntrunc sh_grdtospec]. unfold d1_analysis, row_mean. rewrite !mget_mat_of by lia.
    unfold coef. cbn [nth]. intros Q. apply RtoC_inj in Q. cbn in Q. lra. }
  split.
  { intros k Hk. apply (C116_zonal _ _ _ _ _ _ Hg HE HR HV (relaxing (1 / 10)) zonal_example (@VNum numR 1) 1 (1 / 10) zonal_pv); auto; try lra; reflexivity. }
  split.
  { apply (C116_mean _ _ _ _ _ _ Hg HE HD (relaxing (1 / 10)) zonal_example (@VNum numR 1) 1 (1 / 10)); auto; try lra; try apply UZ; try reflexivity. discriminate. }
  split.
  { apply (C116_threshold _ _ _ _ _ _ Hg HE HR HV (relaxing 1) zonal_example (@VNum numR 1) 1 1 zonal_pv); auto; try lra; try reflexivity; [cbn; lia|]. rewrite ZR. rewrite coef_zero. exact C0. }
  split; [|split; assumption].
  unfold distance_to. change (s_grid zonal_example) with (d1_grid 1 1). rewrite ZR, coef_zero. apply Cmod_gt_0. intros Q. apply C0. rewrite <- Q.
  change (s_pvs zonal_example) with (to_spectral d1_family (d1_grid 1 1) zonal_pv). ring.
Qed.

Example C117_nonvacuous :
  (forall k, (k < 3)%nat -> approaches d1_family (mkModel None 1 1 None) zonal_example (@VNum numR 1) (mat_of 3 4 (fun _ _ => 2)) k)
  /\ (forall k, (0 < k < 3)%nat -> approaches d1_family (mkModel None 1 1 (Some (mat_of 3 4 (fun _ _ => 0)))) zonal_example (@VNum numR 1) (mat_of 3 4 (fun _ _ => 0)) k)
  /\ distance_to d1_family (mat_of 3 4 (fun _ _ => 2)) 1 zonal_example > 0.
Proof.
  assert (Hg := d1_grid_ok 1 1 ltac:(lra)). assert (HE := d1_exact 1 1 ltac:(lra)). assert (HR := d1_rotates 1 1). assert (HV := d1_reverses 1 1). assert (HC := d1_calculus 1 1 ltac:(lra)).
  assert (U : zonally_uniform 3 4 zonal_pv). { split; [apply shaped_mat_of|]. intros i j Hi Hj. unfold zonal_pv. rewrite !mget_mat_of; auto; lia. }
  assert (UZ : zonally_uniform 3 4 (mat_of 3 4 (fun _ _ => 0))). { split; [apply shaped_mat_of|]. intros i j Hi Hj. rewrite !mget_mat_of; auto; lia. }
  assert (TT : timed zonal_example (@VNum numR 1) 1) by (apply (timed_numbers zonal_example (@VNum numR 1) 1 100); reflexivity).
  split; [|split].
  - intros k Hk. apply (C117_uniform _ _ _ _ _ _ Hg HE HC HR HV (mkModel None 1 1 None) zonal_example (@VNum numR 1) 1 zonal_pv 2); auto; try reflexivity; cbn [m_coeff m_order]; try lra; try lia.
    unfold zonal_example, to_spectral, sph, d1_family, d1_grid, zonal_pv. cbn [s_pvs g_nlat g_nlon g_rsphere g_ntrunc sh_grdtospec]. unfold d1_analysis, row_mean. rewrite !mget_mat_of by lia.
    unfold coef. cbn [nth]. f_equal. cbn. field.
  - intros k Hk. apply (C117_background _ _ _ _ _ _ Hg HE HC HR HV (mkModel None 1 1 (Some (mat_of 3 4 (fun _ _ => 0)))) zonal_example (@VNum numR 1) 1 zonal_pv); auto; try reflexivity; cbn [m_coeff m_order]; lra.
  - unfold distance_to. apply Cmod_gt_0. unfold zonal_example, to_spectral, sph, d1_family, d1_grid, zonal_pv. cbn [s_grid s_pvs g_nlat g_nlon g_rsphere g_ntrunc sh_grdtospec]. unfold d1_analysis, row_mean. rewrite !mget_mat_of by lia.
    unfold coef. cbn [nth]. intros Q. rewrite <- RtoC_minus in Q. apply RtoC_inj in Q. unfold d1_sphi in Q. cbn in Q. lra.
Qed.
