(** C144: the angular momentum of forced flows. *)
From Coq Require Export String.
From Verif Require Import Base Model_Grid Model_Time Model_Spectral Model_State Model_Run Model_RHS.
From Verif Require Import Spec_Grid Spec_Spectral Spec_State Spec_Instance Spec_Run Spec_RHS Spec_Symmetry Spec_Relax Spec_Waves Spec_Harmonics Spec_Conserve Spec_PVSource Spec_Torque.
From Verif Require Import Proofs_Base Proofs_Trig Proofs_Grid Proofs_Spectral Proofs_Instance Proofs_State Proofs_Run Proofs_Step Proofs_Relax Proofs_Waves Proofs_Orog Proofs_HarmQuad Proofs_HarmSum Proofs_Harmonics Proofs_HarmProd Proofs_HarmCons Proofs_Conserve Proofs_PVSource Proofs_Torque.
From Verif Require Import Props_RHS Props_Symmetry Props_Harmonics Props_Conserve Props_PVSource.
From Coquelicot Require Import Coquelicot.
From Coq Require Import List Lia Lra.
Open Scope R_scope.

(** Budget: without diffusion, an Euler step changes the angular momentum of the flow by the
    time step times the torque of the forcing, whatever the forcing is *)
Theorem C144_budget : forall K res rs om nt g, mk_grid res rs om nt = Ok g -> (1 <= g_ntrunc g)%nat -> forall D, (1 <= D)%nat -> (2 * D < g_nlat g)%nat -> (2 * D < g_nlon g)%nat ->
  forall (M : bmodel K) f s dt h F e, m_rhs M = Some f -> m_coeff M = 0 -> s_grid s = g -> length (s_pvs s) = nspec (g_ntrunc g) -> resolved (sph (harmonics D) g) (g_ntrunc g) (s_pvs s) ->
  f s = Ok (FMat F) -> to_seconds dt = Ok h -> euler (harmonics D) M s dt = Ok e ->
  momentum (harmonics D) e = momentum (harmonics D) s + h * torque g F.
Proof.
  intros K res rs om nt g Hg N1 D D1 A B M f s dt h F e HM HC G X R EF Hh Ee. pose proof (plain_iff _ _ _ _ _ Hg D A B s G X R) as S.
  destruct (forced_euler_1 res rs om nt g Hg D A B D1 N1 M f s dt h F e HM HC S EF Hh Ee) as [Pe Ce].
  rewrite (momentum_pv res rs om nt g Hg D A B D1 N1 s e _ S Pe Ce), (torque_coef res rs om nt g Hg D A B D1 N1 F). ring.
Qed.
Print Assumptions C144_budget.

(** Zonal-mean wind or solid-body rotation: mountains exert no torque, whatever the state and
    the Coriolis parameter *)
Theorem C144_zonal_wind : forall K res rs om nt g, mk_grid res rs om nt = Ok g -> forall D, (2 * D < g_nlat g)%nat -> (2 * D < g_nlon g)%nat ->
  forall rel H kind fact fref o (s : state K) F, mk_orog rel H (kind, fact) fref = Ok o -> kind = "zon"%string \/ kind = "sbr"%string -> H <> 0 -> s_grid s = g ->
  orog_call (harmonics D) o s = Ok (FMat F) -> torque g F = 0.
Proof.
  intros K res rs om nt g Hg D A B rel H kind fact fref o s F Eo HK H0 G E. apply torque_rows. apply (C143_zonal_wind K res rs om nt g Hg D A B rel H kind fact fref o s F Eo HK H0 G E).
Qed.
Print Assumptions C144_zonal_wind.

(** Integrations with either wind keep the angular momentum of the flow *)
Theorem C144_integration_partial : forall K res rs om nt g, mk_grid res rs om nt = Ok g -> (1 <= g_ntrunc g)%nat -> forall D, (1 <= D)%nat -> (2 * D < g_nlat g)%nat -> (2 * D < g_nlon g)%nat ->
  forall rel H kind fact fref o (M : bmodel K) init dt i s, mk_orog rel H (kind, fact) fref = Ok o -> kind <> "act"%string -> H <> 0 ->
  m_rhs M = Some (orog_call (harmonics D) o) -> m_coeff M = 0 ->
  s_grid init = g -> length (s_pvs init) = nspec (g_ntrunc g) -> resolved (sph (harmonics D) g) (g_ntrunc g) (s_pvs init) ->
  trajectory (harmonics D) M init dt i s -> momentum (harmonics D) s = momentum (harmonics D) init.
Proof.
  intros K res rs om nt g Hg N1 D D1 A B rel H kind fact fref o M init dt i s Eo HK H0 HM HC G X R [new E]. pose proof (plain_iff _ _ _ _ _ Hg D A B init G X R) as S0.
  assert (HZ : kind = "zon"%string \/ kind = "sbr"%string).
  { rewrite mk_orog_wind in Eo. apply String.eqb_neq in HK. rewrite HK in Eo. destruct (String.eqb_spec kind "zon"); [now left|]. destruct (String.eqb_spec kind "sbr"); [now right|discriminate]. }
  destruct (no_torque res rs om nt g Hg D A B D1 N1 M _ init dt i s new HM HC) as [Ps [_ [C _]]]; try assumption.
  - intros b x Pb Ex. assert (exists F, x = FMat F) as [F ->] by (unfold orog_call in Ex; destruct (orography_gradient (harmonics D) (o_relief o) (s_grid b)); [|discriminate]; cbn [bind] in Ex; injection Ex as <-; eauto).
    exists F. split; [reflexivity|]. apply (C144_zonal_wind K res rs om nt g Hg D A B rel H kind fact fref o b F Eo HZ H0 (proj1 Pb) Ex).
  - rewrite (momentum_pv res rs om nt g Hg D A B D1 N1 init s 0 S0 Ps); [ring|rewrite C; ring].
Qed.
Print Assumptions C144_integration_partial.

(** ... but the actual wind feels a torque, even where the global mean of PV is conserved: for
    every constant Coriolis parameter there are a relief and a flow whose angular momentum is
    changed by every Euler step *)
Theorem C144_integration_refuted : forall K res rs om nt g, mk_grid res rs om nt = Ok g -> (1 <= g_ntrunc g)%nat ->
  forall D, (1 <= D)%nat -> (2 * D < g_nlat g)%nat -> (2 * D < g_nlon g)%nat -> (D + 2 < g_nlon g)%nat ->
  forall H fact f time, H <> 0 -> fact <> 0 -> f <> 0 -> exists rel o (s : state K) F, mk_orog rel H ("act"%string, fact) (Some f) = Ok o
  /\ s_grid s = g /\ s_time s = time /\ length (s_pvs s) = nspec (g_ntrunc g) /\ resolved (sph (harmonics D) g) (g_ntrunc g) (s_pvs s)
  /\ orog_call (harmonics D) o s = Ok (FMat F) /\ sphere_mean g F = 0 /\ torque g F <> 0
  /\ forall (M : bmodel K) dt h e, m_rhs M = Some (orog_call (harmonics D) o) -> m_coeff M = 0 -> to_seconds dt = Ok h -> h <> 0 ->
     euler (harmonics D) M s dt = Ok e -> momentum (harmonics D) e <> momentum (harmonics D) s.
Proof.
  intros K res rs om nt g Hg N1 D D1 A B B2 H fact f time H0 F0 f0.
  pose proof (HE res rs om nt g Hg D A B) as HE. pose proof (Hr res rs om nt g Hg) as R0.
  destruct (wave_over_relief (K := K) res rs om nt g Hg D A B D1 N1 time B2) as [rel [hh [s [EO [S [ET W]]]]]]. pose proof (plain_length _ _ _ (proj2 S)) as LS.
  set (o := mkOrog rel H WAct fact (Some f)). destruct (orog_call_get (harmonics D) g HE o s hh (proj1 S) H0 EO) as [F [EF [_ Q]]].
  assert (RS : resolved (sph (harmonics D) g) (g_ntrunc g) (s_pvs s)) by (apply (C133_resolved _ _ _ _ _ Hg D A B _ LS); intros l Hl; split; intros V; now apply S).
  assert (MT : torque g F <> 0).
  { unfold torque. rewrite mean_of. rewrite (qmean_ext _ _ _ (fun i j => - (g_rsphere g ^ 2 * (f * fact / H)) * (sin (row_lat (g_nlat g) i) * (mget (s_u (harmonics D) s) i j * mget (fst (gradient (harmonics D) g hh)) i j + mget (s_v (harmonics D) s) i j * mget (snd (gradient (harmonics D) g hh)) i j)))).
    - rewrite qmean_scal, W. pose proof (mean_square_pos 1 1 ltac:(lia)) as P. assert (0 < g_rsphere g ^ 2) by (apply pow_lt, R0).
      apply Rmult_integral_contrapositive_currified; [|lra]. apply Ropp_neq_0_compat. unfold Rdiv. apply Rmult_integral_contrapositive_currified; [lra|]. apply Rmult_integral_contrapositive_currified; [|now apply Rinv_neq_0_compat]. now apply Rmult_integral_contrapositive_currified.
    - intros i j Hi Hj. rewrite (phi_row res rs om nt g Hg D A B D1 N1 i Hi), Q by assumption. unfold forcing_f, forcing_u, forcing_v. cbn [o o_wind o_fact o_fcor_ref o_scale_height]. field. exact H0. }
  exists rel, o, s, F. split; [reflexivity|]. split; [apply S|]. split; [exact ET|]. split; [exact LS|]. split; [exact RS|]. split; [exact EF|].
  split; [apply (C143_constant_coriolis K res rs om nt g Hg D A B rel H fact f o s F eq_refl H0 (proj1 S) LS RS EF)|]. split; [exact MT|]. intros M dt h e HM HC Hh Hn Ee.
  rewrite (C144_budget K res rs om nt g Hg N1 D D1 A B M _ s dt h F e HM HC (proj1 S) LS RS EF Hh Ee). intros V. apply MT. apply (Rmult_eq_reg_l h); [|exact Hn]. lra.
Qed.
Print Assumptions C144_integration_refuted.

(** Example: 2.5 degrees, harmonics of degree <= 24, a mountain chain under the mean wind *)
Example C144_nonvacuous : exists g c, mk_grid (5 / 2) 6371200 (7292 / 100000000) None = Ok g /\ (2 * 24 < g_nlat g)%nat /\ (2 * 24 < g_nlon g)%nat /\ (24 + 2 < g_nlon g)%nat /\ (1 <= g_ntrunc g)%nat
  /\ mk_orog (RSine 2000 45 15 2) 8000 ("zon"%string, 1) None = Ok c
  /\ let T := harmonics 24 in let s := mkState (K := numR) g (@VNum numR 0) (fcor2_spectral T g) in
  length (s_pvs s) = nspec (g_ntrunc g) /\ resolved (sph T g) (g_ntrunc g) (s_pvs s)
  /\ (exists F, orog_call T c s = Ok (FMat F))
  /\ exists e, euler T (mkModel (Some (orog_call T c)) 2 0 None) s (@VNum numR 600) = Ok e.
Proof.
  destruct quarter_grid as [g [Hg [A [B [C O]]]]]. assert (A24 : (2 * 24 < g_nlat g)%nat) by lia. assert (B24 : (2 * 24 < g_nlon g)%nat) by lia.
  eexists g, _. split; [exact Hg|]. split; [lia|]. split; [lia|]. split; [lia|]. split; [lia|]. split; [reflexivity|]. cbv zeta. cbn [s_pvs].
  pose proof (plain_analysis (5 / 2) 6371200 (7292 / 100000000) None g Hg 24 A24 B24 (g_fcor2 g)) as PF. fold (fcor2_spectral (harmonics 24) g) in PF. pose proof (plain_length _ _ _ PF) as LF.
  split; [exact LF|]. split; [apply (C133_resolved _ _ _ _ _ Hg 24 A24 B24 _ LF); intros l Hl; split; intros V; now apply PF|].
  split; [eexists; reflexivity|]. eexists. reflexivity.
Qed.
