(** C143: the global mean of PV under orographic forcing. *)
From Coq Require Export String.
From Verif Require Import Base Model_Grid Model_Time Model_Spectral Model_State Model_Run Model_RHS.
From Verif Require Import Spec_Grid Spec_Spectral Spec_State Spec_Instance Spec_Run Spec_RHS Spec_Symmetry Spec_Relax Spec_Waves Spec_Harmonics Spec_Conserve Spec_PVSource.
From Verif Require Import Proofs_Base Proofs_Trig Proofs_Grid Proofs_Spectral Proofs_Instance Proofs_State Proofs_Run Proofs_Step Proofs_Relax Proofs_Waves Proofs_Orog Proofs_HarmQuad Proofs_HarmSum Proofs_Harmonics Proofs_HarmProd Proofs_HarmCons Proofs_Conserve Proofs_PVSource.
From Verif Require Import Props_RHS Props_Symmetry Props_Harmonics Props_Conserve.
From Coquelicot Require Import Coquelicot.
From Coq Require Import List Lia Lra.
Open Scope R_scope.

(** Budget: an Euler step changes the mean of PV by the time step times the mean of the
    forcing, whatever the forcing, advection and diffusion are *)
Theorem C143_budget : forall K res rs om nt g, mk_grid res rs om nt = Ok g -> forall D, (2 * D < g_nlat g)%nat -> (2 * D < g_nlon g)%nat ->
  forall (M : bmodel K) f s dt h F e, m_rhs M = Some f -> (1 <= m_order M)%nat -> s_grid s = g -> length (s_pvs s) = nspec (g_ntrunc g) -> resolved (sph (harmonics D) g) (g_ntrunc g) (s_pvs s) ->
  f s = Ok (FMat F) -> to_seconds dt = Ok h -> euler (harmonics D) M s dt = Ok e ->
  mean_pv (harmonics D) e = mean_pv (harmonics D) s + h * sphere_mean g F.
Proof.
  intros K res rs om nt g Hg D A B M f s dt h F e HM HO G X R EF Hh Ee. pose proof (plain_iff _ _ _ _ _ Hg D A B s G X R) as S.
  destruct (forced_euler res rs om nt g Hg D A B M f s dt h F e HM HO S EF Hh Ee) as [Pe Ce].
  rewrite (mean_pv_coef res rs om nt g Hg D A B e Pe), (mean_pv_coef res rs om nt g Hg D A B s S), Ce. destruct (coef (s_pvs s) 0). cbn. reflexivity.
Qed.
Print Assumptions C143_budget.

(** Actual wind and a constant Coriolis parameter: the forcing has no mean over the sphere *)
Theorem C143_constant_coriolis : forall K res rs om nt g, mk_grid res rs om nt = Ok g -> forall D, (2 * D < g_nlat g)%nat -> (2 * D < g_nlon g)%nat ->
  forall rel H fact f o (s : state K) F, mk_orog rel H ("act"%string, fact) (Some f) = Ok o -> H <> 0 ->
  s_grid s = g -> length (s_pvs s) = nspec (g_ntrunc g) -> resolved (sph (harmonics D) g) (g_ntrunc g) (s_pvs s) ->
  orog_call (harmonics D) o s = Ok (FMat F) -> sphere_mean g F = 0.
Proof.
  intros K res rs om nt g Hg D A B rel H fact f o s F Eo H0 G X R E. pose proof (plain_iff _ _ _ _ _ Hg D A B s G X R) as S. rewrite mk_orog_wind in Eo. cbn [String.eqb] in Eo. injection Eo as <-.
  eapply (act_mean res rs om nt g Hg D A B); [exact S| | | |exact E]; [reflexivity|reflexivity|exact H0].
Qed.
Print Assumptions C143_constant_coriolis.

(** Zonal-mean wind or solid-body rotation: no mean along any circle of latitude, for the
    actual and for any constant Coriolis parameter, whatever the state *)
Theorem C143_zonal_wind : forall K res rs om nt g, mk_grid res rs om nt = Ok g -> forall D, (2 * D < g_nlat g)%nat -> (2 * D < g_nlon g)%nat ->
  forall rel H kind fact fref o (s : state K) F, mk_orog rel H (kind, fact) fref = Ok o -> kind = "zon"%string \/ kind = "sbr"%string -> H <> 0 -> s_grid s = g ->
  orog_call (harmonics D) o s = Ok (FMat F) -> (forall i, (i < g_nlat g)%nat -> circle_mean g F i = 0) /\ sphere_mean g F = 0.
Proof.
  intros K res rs om nt g Hg D A B rel H kind fact fref o s F Eo HK H0 G E.
  assert (W : o_wind o <> WAct /\ o_scale_height o = H) by (rewrite mk_orog_wind in Eo; destruct HK as [-> | ->]; cbn [String.eqb] in Eo; injection Eo as <-; split; try reflexivity; discriminate).
  destruct W as [W EH]. rewrite <- EH in H0. split; [intros i Hi; apply (zonal_mean_zero res rs om nt g Hg D A B o s F i G W H0 E Hi)|apply (zonal_mean res rs om nt g Hg D A B o s F G W H0 E)].
Qed.
Print Assumptions C143_zonal_wind.

(** Integrations with either forcing, with any diffusion, keep the mean of PV *)
Theorem C143_integration_partial : forall K res rs om nt g, mk_grid res rs om nt = Ok g -> forall D, (2 * D < g_nlat g)%nat -> (2 * D < g_nlon g)%nat ->
  forall rel H kind fact fref o (M : bmodel K) init dt i s, mk_orog rel H (kind, fact) fref = Ok o -> kind <> "act"%string \/ fref <> None -> H <> 0 ->
  m_rhs M = Some (orog_call (harmonics D) o) -> (1 <= m_order M)%nat ->
  s_grid init = g -> length (s_pvs init) = nspec (g_ntrunc g) -> resolved (sph (harmonics D) g) (g_ntrunc g) (s_pvs init) ->
  trajectory (harmonics D) M init dt i s -> mean_pv (harmonics D) s = mean_pv (harmonics D) init.
Proof.
  intros K res rs om nt g Hg D A B rel H kind fact fref o M init dt i s Eo HK H0 HM HO G X R [new E]. pose proof (plain_iff _ _ _ _ _ Hg D A B init G X R) as S0.
  destruct (no_source res rs om nt g Hg D A B M _ init dt i s new HM HO) as [Ps [_ [C _]]]; try assumption.
  - intros b x Pb Ex. assert (exists F, x = FMat F) as [F ->] by (unfold orog_call in Ex; destruct (orography_gradient (harmonics D) (o_relief o) (s_grid b)); [|discriminate]; cbn [bind] in Ex; injection Ex as <-; eauto).
    exists F. split; [reflexivity|]. assert (EH : o_scale_height o = H) by (rewrite mk_orog_wind in Eo; destruct (String.eqb kind "act"), (String.eqb kind "zon"), (String.eqb kind "sbr"); try discriminate; injection Eo as <-; reflexivity).
    destruct (o_wind o) eqn:W.
    + destruct fref as [f|].
      * apply (act_mean res rs om nt g Hg D A B o b F f Pb W); [|congruence|exact Ex]. rewrite mk_orog_wind in Eo; destruct (String.eqb kind "act"), (String.eqb kind "zon"), (String.eqb kind "sbr"); try discriminate; injection Eo as <-; reflexivity.
      * exfalso. destruct HK as [HK|HK]; [|now apply HK]. rewrite mk_orog_wind in Eo. apply String.eqb_neq in HK. rewrite HK in Eo. destruct (String.eqb kind "zon"), (String.eqb kind "sbr"); try discriminate; injection Eo as <-; discriminate.
    + apply (zonal_mean res rs om nt g Hg D A B o b F (proj1 Pb)); [congruence|congruence|exact Ex].
    + apply (zonal_mean res rs om nt g Hg D A B o b F (proj1 Pb)); [congruence|congruence|exact Ex].
  - rewrite (mean_pv_coef res rs om nt g Hg D A B s Ps), (mean_pv_coef res rs om nt g Hg D A B init S0), C. reflexivity.
Qed.
Print Assumptions C143_integration_partial.

(** ... but the default, the actual wind with the Coriolis parameter of the grid, is a source
    of PV: on every rotating planet there are a relief and a flow whose forcing has a mean, and
    any Euler step from there changes the mean of PV *)
Theorem C143_integration_refuted : forall K res rs om nt g, mk_grid res rs om nt = Ok g -> om <> 0 -> (1 <= g_ntrunc g)%nat ->
  forall D, (1 <= D)%nat -> (2 * D < g_nlat g)%nat -> (2 * D < g_nlon g)%nat -> (D + 2 < g_nlon g)%nat ->
  forall H fact time, H <> 0 -> fact <> 0 -> exists rel o (s : state K) F, mk_orog rel H ("act"%string, fact) None = Ok o
  /\ s_grid s = g /\ s_time s = time /\ length (s_pvs s) = nspec (g_ntrunc g) /\ resolved (sph (harmonics D) g) (g_ntrunc g) (s_pvs s)
  /\ orog_call (harmonics D) o s = Ok (FMat F) /\ sphere_mean g F <> 0
  /\ forall (M : bmodel K) dt h e, m_rhs M = Some (orog_call (harmonics D) o) -> (1 <= m_order M)%nat -> to_seconds dt = Ok h -> h <> 0 ->
     euler (harmonics D) M s dt = Ok e -> mean_pv (harmonics D) e <> mean_pv (harmonics D) s.
Proof.
  intros K res rs om nt g Hg Om N1 D D1 A B B2 H fact time H0 F0. destruct (mk_grid_counts _ _ _ _ _ Hg) as [_ [MP NP]].
  pose proof (HN res rs om nt g Hg D A B) as HN. pose proof (Hr res rs om nt g Hg) as R0. pose proof (HE res rs om nt g Hg D A B) as HE.
  set (L := nspec (g_ntrunc g)). set (T := harmonics D). set (k := S (g_ntrunc g)).
  destruct (wave_index (g_ntrunc g) N1) as [HK [OK DK]]. fold k in HK, OK, DK. fold L in HK.
  set (z := tab L (fun l => if Nat.eqb l k then RtoC 1 else RtoC 0)). set (a := tab L (fun l => if Nat.eqb l k then (0, -1) else RtoC 0)).
  assert (CZ : forall l, (l < L)%nat -> coef z l = if Nat.eqb l k then RtoC 1 else RtoC 0) by (intros l Hl; apply coef_tab, Hl).
  assert (CA : forall l, (l < L)%nat -> coef a l = if Nat.eqb l k then (0, -1) else RtoC 0) by (intros l Hl; apply coef_tab, Hl).
  assert (LZ : length z = L) by apply tab_length. assert (LA : length a = L) by apply tab_length.
  assert (PZ : plain_spec g D z).
  { split; [split; [exact LZ|]|]; intros l Hl V; rewrite CZ by exact Hl; destruct (Nat.eqb_spec l k) as [->|]; try reflexivity. rewrite DK in V. lia. }
  assert (PA : plain_spec g D a).
  { split; [split; [exact LA|]|]; intros l Hl V; rewrite CA by exact Hl; destruct (Nat.eqb_spec l k) as [->|]; try reflexivity; [rewrite DK in V; lia|rewrite OK in V; discriminate]. }
  assert (ZD : of_degree (g_ntrunc g) 1 z).
  { split; [exact LZ|]. intros l Hl V. rewrite CZ by exact Hl. destruct (Nat.eqb_spec l k) as [->|]; [contradiction|reflexivity]. }
  assert (ZR : resolved (sph T g) (g_ntrunc g) z) by (apply (C133_resolved _ _ _ _ _ Hg D A B z LZ); intros l Hl; split; intros V; now apply PZ).
  assert (AR : resolved (sph T g) (g_ntrunc g) a) by (apply (C133_resolved _ _ _ _ _ Hg D A B a LA); intros l Hl; split; intros V; now apply PA).
  set (hh := to_grid T g a). assert (SH : shaped (g_nlat g) (g_nlon g) hh) by apply (et_shape _ _ _ _ HE).
  assert (EA : to_spectral T g hh = a) by exact AR.
  set (rel := RField (g_lon g) (g_lat g) hh). set (o := mkOrog rel H WAct fact None).
  set (s := mkState (K := K) g time (sadd (fcor2_spectral T g) z)).
  pose proof (plain_analysis res rs om nt g Hg D A B (g_fcor2 g)) as PF. fold T in PF. fold (fcor2_spectral T g) in PF. pose proof (plain_length _ _ _ PF) as LF. fold L in LF.
  assert (LS : length (s_pvs s) = L) by (cbn [s s_pvs]; rewrite sadd_length; congruence).
  assert (S : plain_state g D s).
  { split; [reflexivity|]. apply (plain_lin g D 1 1 _ _ _ PF PZ); [exact LS|]. intros l Hl. cbn [s s_pvs]. fold L in Hl. rewrite coef_sadd by congruence. ring. }
  assert (VO : s_vorticity_spectral T s = z).
  { apply (coef_ext L); [apply (plain_length g D), (vo_plain res rs om nt g Hg D A B s S)|exact LZ|]. intros l Hl. unfold T. rewrite (vo_coef res rs om nt g Hg D A B s l S Hl). fold T. cbn [s s_pvs]. rewrite coef_sadd by congruence. rewrite Proofs_Harmonics.RtoC_m1. ring. }
  assert (EO : orography rel g = Ok hh) by (apply C42_same_grid; [lia|lia|exact SH]).
  destruct (orog_call_get T g HE o s hh eq_refl H0 EO) as [F [EF [_ Q]]].
  assert (MF : sphere_mean g F <> 0).
  { change (qmean (g_nlat g) (g_nlon g) (mget F) <> 0). destruct (uv_eq res rs om nt g Hg D A B s S) as [EU EV]. fold T in EU, EV. rewrite VO in EU, EV.
    set (N := g_nlat g) in *. set (M := g_nlon g) in *. set (r := g_rsphere g) in *. set (fu := flow_u N M r z) in *. set (fv := flow_v N M r z) in *.
    pose proof (flow_eq res rs om nt g Hg D z PZ) as FW. fold T N M r L in FW. fold fu fv in FW.
    pose proof (C133_products _ _ _ _ _ Hg N1 D 1 ltac:(lia) A B ltac:(lia) ltac:(lia)) as HP.
    pose proof (div_adjoint N M D (g_ntrunc g) r R0 a (mmul (sine_lat N M) (mat_of N M fu)) (mmul (sine_lat N M) (mat_of N M fv)) (proj1 PA)) as E. cbv beta in E.
    set (fd := snd (h_getvrtdiv D r N M _ _ _)) in E.
    assert (FD : fd = flux_divergence (sph T g) (g_ntrunc g) (sine_lat N M) z) by (unfold flux_divergence; fold L; rewrite FW; reflexivity).
    assert (IN : inner (g_ntrunc g) a fd = mean_square 1 1 / 2).
    { unfold inner. fold L. rewrite (Rsum_tab_one L _ k HK).
      - pose proof (ep_across _ _ _ _ _ HP z k ZD ZR HK) as EC. fold T N M in EC. rewrite FD, EC, CA, CZ, Nat.eqb_refl, OK, DK by exact HK. unfold cdot. cbn. field.
      - intros l Hl V. rewrite CA by exact Hl. apply Nat.eqb_neq in V. rewrite V, cdot_0_l. ring. }
    assert (ME : qmean N M (mget F) = 2 * om * fact / H * (mean_square 1 1 / 2)).
    { rewrite <- IN, E, <- !qmean_scal. apply qmean_ext. intros i j Hi Hj. rewrite Q by assumption. unfold forcing_f, forcing_u, forcing_v. cbn [o o_wind o_fact o_fcor_ref o_scale_height]. rewrite EU, EV.
      rewrite !(mget_mmul N M) by (assumption || apply shaped_mat_of). unfold sine_lat. rewrite !mget_mat_of by assumption.
      rewrite (gf_om _ _ _ _ (mk_grid_facts _ _ _ _ _ Hg)). unfold gradient. rewrite EA. unfold sph, T, harmonics. cbn [sh_getgrad]. unfold h_getgrad, sample. cbn [fst snd]. fold N M r. rewrite !mget_mat_of by assumption.
      replace (deg2rad (nth i (g_lat g) 0)) with (PI / 2 - PI * INR i / INR (N - 1)); [field; split; lra|].
      unfold g_lat, linspace_end. rewrite tab_nth by exact Hi. assert (0 < INR (N - 1)) by (apply lt_0_INR; lia). unfold deg2rad. fold N. field. lra. }
    rewrite ME. pose proof (mean_square_pos 1 1 ltac:(lia)) as P.
    apply Rmult_integral_contrapositive_currified; [|lra]. unfold Rdiv. repeat apply Rmult_integral_contrapositive_currified; try assumption; [lra|now apply Rinv_neq_0_compat]. }
  exists rel, o, s, F. split; [reflexivity|]. split; [reflexivity|]. split; [reflexivity|]. split; [exact LS|].
  assert (RS : resolved (sph T g) (g_ntrunc g) (s_pvs s)) by (apply (C133_resolved _ _ _ _ _ Hg D A B _ LS); intros l Hl; split; intros V; now apply S).
  split; [exact RS|]. split; [exact EF|]. split; [exact MF|]. intros M dt h e HM HO Hh Hn Ee.
  pose proof (C143_budget K res rs om nt g Hg D A B M _ s dt h F e HM HO eq_refl LS RS EF Hh Ee) as EB. fold T in EB. rewrite EB. intros V. apply MF. apply (Rmult_eq_reg_l h); [|exact Hn]. lra.
Qed.
Print Assumptions C143_integration_refuted.

(** Example: 2.5 degrees, harmonics of degree <= 24.  The hypotheses of both sides hold for the
    planet at rest and a mountain chain, and for the refutation on the Earth. *)
Example C143_nonvacuous : exists g o c, mk_grid (5 / 2) 6371200 (7292 / 100000000) None = Ok g /\ (2 * 24 < g_nlat g)%nat /\ (2 * 24 < g_nlon g)%nat /\ (24 + 2 < g_nlon g)%nat /\ (1 <= g_ntrunc g)%nat
  /\ mk_orog (RSine 2000 45 15 2) 8000 ("act"%string, 1) (Some (1 / 10000)) = Ok o /\ mk_orog (RSine 2000 45 15 2) 8000 ("zon"%string, 1) None = Ok c
  /\ let T := harmonics 24 in let s := mkState (K := numR) g (@VNum numR 0) (fcor2_spectral T g) in
  length (s_pvs s) = nspec (g_ntrunc g) /\ resolved (sph T g) (g_ntrunc g) (s_pvs s)
  /\ (exists F, orog_call T o s = Ok (FMat F)) /\ (exists F, orog_call T c s = Ok (FMat F))
  /\ exists e, euler T (mkModel (Some (orog_call T o)) 2 (1 / 10) None) s (@VNum numR 600) = Ok e.
Proof.
  destruct quarter_grid as [g [Hg [A [B [C O]]]]]. assert (A24 : (2 * 24 < g_nlat g)%nat) by lia. assert (B24 : (2 * 24 < g_nlon g)%nat) by lia.
  eexists g, _, _. split; [exact Hg|]. split; [lia|]. split; [lia|]. split; [lia|]. split; [lia|]. split; [reflexivity|]. split; [reflexivity|]. cbv zeta. cbn [s_pvs].
  pose proof (plain_analysis (5 / 2) 6371200 (7292 / 100000000) None g Hg 24 A24 B24 (g_fcor2 g)) as PF. fold (fcor2_spectral (harmonics 24) g) in PF. pose proof (plain_length _ _ _ PF) as LF.
  split; [exact LF|]. split; [apply (C133_resolved _ _ _ _ _ Hg 24 A24 B24 _ LF); intros l Hl; split; intros V; now apply PF|].
  split; [eexists; reflexivity|]. split; [eexists; reflexivity|]. eexists. reflexivity.
Qed.
