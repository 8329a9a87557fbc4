(** Symmetries of integrations (C111) and steadiness of zonal flows (C112). *)
From Coq Require Export String.
From Verif Require Import Base Model_Grid Model_Time Model_Spectral Model_State Model_Run Model_Init.
From Verif Require Import Spec_Grid Spec_Spectral Spec_State Spec_Instance Spec_Run Spec_Sym Spec_Symmetry.
From Verif Require Import Proofs_Base Proofs_Grid Proofs_Spectral Proofs_Instance Proofs_State Proofs_Run Proofs_Step Proofs_Sym Proofs_Symmetry Proofs_SymInst.
From Verif Require Import Props_Run Props_Init.
From Coquelicot Require Import Complex.
From Coq Require Import List Lia Lra.
Open Scope R_scope.

Lemma mk_grid_counts res rs om nt g : mk_grid res rs om nt = Ok g ->
  (g_ntrunc g < g_nlon g)%nat /\ (0 < g_nlon g)%nat /\ (1 < g_nlat g)%nat.
Proof.
  intros Hg. pose proof (mk_grid_facts _ _ _ _ _ Hg) as [_ _ _ _ _ L4 L3 A B C D E].
  assert (INR (g_nlat g - 1) < INR (g_nlon g)).
  { assert (360 / res = 2 * (180 / res)) by (unfold Rdiv; ring). assert (2 <= INR (g_nlat g - 1)) by (apply (le_INR 2); lia). lra. }
  apply INR_lt in H. lia.
Qed.

(** ** C111 *)
(** Rotating the initial state, the background and the forcing by one gridpoint
    rotates all states of an integration; errors are the same.  Rotations by
    several gridpoints are repetitions of this. *)
Theorem C111_rotation : forall K T g res rs om nt, mk_grid res rs om nt = Ok g -> exact_on T g -> rotates T g ->
  forall (M M' : bmodel K) fuel init dt tend se, corresponding g rotated (rotate (g_nlon g)) M M' ->
  s_grid init = g -> length (s_pvs init) = nspec (g_ntrunc g) ->
  run T M' fuel (rotated init) dt tend se = map_run rotated (run T M fuel init dt tend se).
Proof. intros K T g res rs om nt Hg H HR M M' fuel init dt tend se HM G L. destruct (mk_grid_counts _ _ _ _ _ Hg) as [_ [P _]]. now apply (rot_run T g H P HR). Qed.
Print Assumptions C111_rotation.
(** Reflecting everything in the equator reflects all states. *)
Theorem C111_reflection : forall K T g res rs om nt, mk_grid res rs om nt = Ok g -> exact_on T g -> reflects T g ->
  forall (M M' : bmodel K) fuel init dt tend se, corresponding g reflected (mirror (-1)) M M' ->
  s_grid init = g -> length (s_pvs init) = nspec (g_ntrunc g) ->
  run T M' fuel (reflected init) dt tend se = map_run reflected (run T M fuel init dt tend se).
Proof. intros K T g res rs om nt Hg H HR M M' fuel init dt tend se HM G L. destruct (mk_grid_counts _ _ _ _ _ Hg) as [_ [_ P]]. now apply (refl_run T g H P HR). Qed.
Print Assumptions C111_reflection.
(** What this means for the fields: those of the rotated state are rotated; PV and
    northward wind of the reflected state are reflected with the opposite sign,
    the eastward wind with its sign. *)
Theorem C111_fields : forall K T g res rs om nt, mk_grid res rs om nt = Ok g -> exact_on T g ->
  forall s : state K, s_grid s = g -> length (s_pvs s) = nspec (g_ntrunc g) ->
  (rotates T g -> s_pv T (rotated s) = rotate (g_nlon g) (s_pv T s) /\ s_u T (rotated s) = rotate (g_nlon g) (s_u T s)
                  /\ s_v T (rotated s) = rotate (g_nlon g) (s_v T s))
  /\ (reflects T g -> s_pv T (reflected s) = mirror (-1) (s_pv T s) /\ s_u T (reflected s) = mirror 1 (s_u T s)
                      /\ s_v T (reflected s) = mirror (-1) (s_v T s)).
Proof.
  intros K T g res rs om nt Hg H s G L. destruct (mk_grid_counts _ _ _ _ _ Hg) as [_ [P Q]]. split; intros HR.
  - unfold s_u, s_v. rewrite (rot_wind T g H P HR s G L). split; [|split; reflexivity]. unfold s_pv, rotated. cbn [s_grid s_pvs]. rewrite G. now apply (ro_synthesis _ _ _ _ HR).
  - unfold s_u, s_v. rewrite (refl_wind T g H Q HR s G L). split; [|split; reflexivity]. unfold s_pv, reflected. cbn [s_grid s_pvs]. rewrite G. now apply (re_synthesis _ _ _ _ HR).
Qed.
Print Assumptions C111_fields.
(** A symmetric state integrated by a symmetric model stays symmetric: fields that
    do not depend on longitude ... *)
Theorem C111_stays_zonal : forall K T g res rs om nt, mk_grid res rs om nt = Ok g -> exact_on T g -> rotates T g ->
  forall (M : bmodel K) fuel init dt tend se f r pv, corresponding g rotated (rotate (g_nlon g)) M M ->
  zonally_uniform (g_nlat g) (g_nlon g) pv -> s_grid init = g -> s_pvs init = to_spectral T g pv ->
  run T M fuel init dt tend se = Ok (f, r) ->
  Forall (fun s => zonally_uniform (g_nlat g) (g_nlon g) (s_pv T s) /\ zonally_uniform (g_nlat g) (g_nlon g) (s_u T s)
                   /\ zonally_uniform (g_nlat g) (g_nlon g) (s_v T s)) (f :: items r).
Proof.
  intros K T g res rs om nt Hg H HR M fuel init dt tend se f r pv HM U G E X. destruct (mk_grid_counts _ _ _ _ _ Hg) as [Q [P _]].
  assert (L : length (s_pvs init) = nspec (g_ntrunc g)) by (rewrite E; apply (A_len T g H)).
  pose proof (rot_run T g H P HR M M fuel init dt tend se HM G L) as RR. rewrite (zonal_init T g Q HR pv init U E G), X in RR.
  pose proof (map_run_fixed rotated (Ok (f, r)) f r (eq_sym RR) eq_refl) as FX.
  pose proof (run_good T g H M fuel init dt tend se f r (conj G L) X) as ON.
  apply Forall_forall. intros s Hs. rewrite Forall_forall in FX, ON. destruct (ON s Hs). apply (zonal_wind T g H Q HR); auto.
Qed.
Print Assumptions C111_stays_zonal.
(** ... and PV that is antisymmetric about the equator, with an eastward wind that
    is symmetric and a northward wind that is antisymmetric. *)
Theorem C111_stays_symmetric : forall K T g res rs om nt, mk_grid res rs om nt = Ok g -> exact_on T g -> reflects T g ->
  forall (M : bmodel K) fuel init dt tend se f r pv, corresponding g reflected (mirror (-1)) M M ->
  shaped (g_nlat g) (g_nlon g) pv -> (forall i j, (i < g_nlat g)%nat -> (j < g_nlon g)%nat -> mget pv (g_nlat g - 1 - i) j = - mget pv i j) ->
  s_grid init = g -> s_pvs init = to_spectral T g pv ->
  run T M fuel init dt tend se = Ok (f, r) ->
  Forall (fun s => forall i j, (i < g_nlat g)%nat -> (j < g_nlon g)%nat ->
      mget (s_pv T s) (g_nlat g - 1 - i) j = - mget (s_pv T s) i j
      /\ mget (s_u T s) (g_nlat g - 1 - i) j = mget (s_u T s) i j
      /\ mget (s_v T s) (g_nlat g - 1 - i) j = - mget (s_v T s) i j) (f :: items r).
Proof.
  intros K T g res rs om nt Hg H HR M fuel init dt tend se f r pv HM S A G E X. destruct (mk_grid_counts _ _ _ _ _ Hg) as [_ [_ Q]].
  assert (L : length (s_pvs init) = nspec (g_ntrunc g)) by (rewrite E; apply (A_len T g H)).
  pose proof (refl_run T g H Q HR M M fuel init dt tend se HM G L) as RR.
  assert (RI : reflected init = init).
  { apply reflected_fixed. rewrite G, E. unfold to_spectral. rewrite <- (re_analysis _ _ _ _ HR) by assumption. f_equal.
    apply (mat_ext (g_nlat g) (g_nlon g)); [now apply shaped_mirror|assumption|]. intros i j Hi Hj. rewrite (mget_mirror _ (g_nlat g) (g_nlon g)) by assumption. rewrite A by assumption. ring. }
  rewrite RI, X in RR. pose proof (map_run_fixed reflected (Ok (f, r)) f r (eq_sym RR) eq_refl) as FX.
  pose proof (run_good T g H M fuel init dt tend se f r (conj G L) X) as ON.
  apply Forall_forall. intros s Hs. rewrite Forall_forall in FX, ON. destruct (ON s Hs) as [Gs Ls]. pose proof (FX s Hs) as Fs.
  destruct (proj2 (C111_fields K T g res rs om nt Hg H s Gs Ls) HR) as [E1 [E2 E3]]. rewrite Fs in E1, E2, E3. intros i j Hi Hj.
  assert (SP : shaped (g_nlat g) (g_nlon g) (s_pv T s)) by (unfold s_pv; rewrite Gs; apply (B_shape T g H)).
  assert (SW : shaped (g_nlat g) (g_nlon g) (s_u T s) /\ shaped (g_nlat g) (g_nlon g) (s_v T s)).
  { unfold s_u, s_v, s_invert_pv, wind. rewrite Gs. apply (et_wind_shape _ _ _ _ H). }
  destruct SW as [SU SV].
  apply (f_equal (fun m => mget m i j)) in E1, E2, E3. rewrite (mget_mirror (-1) (g_nlat g) (g_nlon g)) in E1, E3 by assumption. rewrite (mget_mirror 1 (g_nlat g) (g_nlon g)) in E2 by assumption. lra.
Qed.
Print Assumptions C111_stays_symmetric.

(** an eddy whose PV is neither zonal nor antisymmetric, in a model with diffusion
    towards a background, a forcing that depends on the state, and the rotated and
    the reflected model; both integrations return *)
Definition eddy_model (bg : mat) : bmodel numR := mkModel (Some (fun s => Ok (FMat (s_pv d1_family s)))) 2 1 (Some bg).
Definition eddy_bg : mat := mat_of 3 4 (fun i j => INR (i * j)).
Example C111_nonvacuous : mk_grid 90 1 1 (Some 1%Z) = Ok (d1_grid 1 1) /\ exact_on d1_family (d1_grid 1 1)
  /\ rotates d1_family (d1_grid 1 1) /\ reflects d1_family (d1_grid 1 1)
  /\ s_grid example_init = d1_grid 1 1 /\ length (s_pvs example_init) = nspec (g_ntrunc (d1_grid 1 1))
  /\ rotated example_init <> example_init /\ reflected example_init <> example_init
  /\ mget (rotate 4 eddy_bg) 1 0 = 1 /\ mget (mirror (-1) eddy_bg) 0 1 = -2
  /\ (exists fuel f l, run d1_family (eddy_model eddy_bg) fuel example_init (@VNum numR 7) (@VNum numR 120) (@VNum numR 10) = Ok (f, AStateList l)).
Proof.
  split; [apply d1_grid_ok; lra|]. split; [apply d1_exact; lra|]. split; [apply d1_rotates|]. split; [apply d1_reflects|]. do 2 (split; [reflexivity|]).
  split; [|split; [|split; [|split]]].
  - intros E%(f_equal s_pvs). unfold rotated, example_init in E. cbn [s_pvs s_grid d1_grid g_ntrunc g_nlon] in E. rewrite d1_turn in E. unfold Ci in E. cbn in E. injection E as E1. lra.
  - intros E%(f_equal s_pvs). unfold reflected, example_init in E. cbn [s_pvs s_grid d1_grid g_ntrunc g_nlon] in E. rewrite d1_flip in E. unfold Ci in E. cbn in E. injection E as _ _ _ E1. lra.
  - unfold rotate, relabel, eddy_bg, mget, mat_of. cbn. ring.
  - unfold mirror, mscale, eddy_bg, mget, mat_of. cbn. ring.
  - destruct (C30_returns_numbers d1_family (eddy_model eddy_bg) example_init 100 7 120 10) as [n1 [f1 [l1 H1]]]; try reflexivity; try lra.
    + intros s. cbn. eauto.
    + exists n1, f1, l1. apply H1. lia.
Qed.
Example C111_corresponding : corresponding (d1_grid 1 1) rotated (rotate 4) (eddy_model eddy_bg) (eddy_model (rotate 4 eddy_bg))
  /\ corresponding (d1_grid 1 1) reflected (mirror (-1)) (eddy_model eddy_bg) (eddy_model (mirror (-1) eddy_bg))
  /\ corresponding (d1_grid 1 1) rotated (rotate 4) (mkModel (K := numR) None 2 1 None) (mkModel None 2 1 None)
  /\ corresponding (d1_grid 1 1) reflected (mirror (-1)) (mkModel (K := numR) None 2 1 (Some (g_fcor2 (d1_grid 1 1)))) (mkModel None 2 1 (Some (g_fcor2 (d1_grid 1 1)))).
Proof.
  assert (GF : gridded_forcing (d1_grid 1 1) (fun s : state numR => Ok (FMat (s_pv d1_family s)))).
  { intros s m G [= <-]. unfold s_pv. rewrite G. apply (B_shape d1_family (d1_grid 1 1)). apply d1_exact. lra. }
  assert (SB : shaped 3 4 eddy_bg) by apply shaped_mat_of.
  pose proof (d1_grid_ok 1 1 ltac:(lra)) as Hg. pose proof (d1_exact 1 1 ltac:(lra)) as HE.
  split; [|split; [|split]].
  - do 2 (split; [reflexivity|]). split; [now split|]. split; [exact GF|]. intros s G L. cbn [on_ok map_value]. do 2 f_equal.
    apply (C111_fields numR d1_family (d1_grid 1 1) _ _ _ _ Hg HE s G L). apply d1_rotates.
  - do 2 (split; [reflexivity|]). split; [now split|]. split; [exact GF|]. intros s G L. cbn [on_ok map_value]. do 2 f_equal.
    apply (C111_fields numR d1_family (d1_grid 1 1) _ _ _ _ Hg HE s G L). apply d1_reflects.
  - repeat split.
  - do 2 (split; [reflexivity|]). split; [|exact I]. split; [apply fcor2_shaped|]. symmetry. apply fcor2_antisymmetric. cbn. lia.
Qed.

(** ** C112 *)
(** Without forcing, and without diffusion or with diffusion towards the initial
    PV, a state whose PV does not depend on longitude keeps it, however long the
    integration. *)
Theorem C112_steady : forall K T g res rs om nt, mk_grid res rs om nt = Ok g -> exact_on T g -> rotates T g -> reverses T g ->
  forall (M : bmodel K) fuel init dt tend se f r pv, m_rhs M = None ->
  (m_coeff M = 0 \/ exists bg, m_bg M = Some bg /\ to_spectral T g bg = s_pvs init) ->
  zonally_uniform (g_nlat g) (g_nlon g) pv -> s_grid init = g -> s_pvs init = to_spectral T g pv ->
  run T M fuel init dt tend se = Ok (f, r) -> Forall (fun s => s_grid s = g /\ s_pvs s = s_pvs init) (f :: items r).
Proof.
  intros K T g res rs om nt Hg H HR HV M fuel init dt tend se f r pv HM HN U G E X. destruct (mk_grid_counts _ _ _ _ _ Hg) as [Q _].
  rewrite E in HN |- *. apply (run_zonal T g H Q HR HV (made_radius _ _ _ _ _ Hg) M pv fuel init dt tend se); auto. now split.
Qed.
Print Assumptions C112_steady.
(** Such a state has no northward wind and its PV flux no divergence. *)
Theorem C112_no_northward_wind : forall K T g res rs om nt, mk_grid res rs om nt = Ok g -> exact_on T g -> rotates T g -> reverses T g ->
  forall (s : state K) pv, zonally_uniform (g_nlat g) (g_nlon g) pv -> s_grid s = g -> s_pvs s = to_spectral T g pv ->
  (forall i j, (i < g_nlat g)%nat -> (j < g_nlon g)%nat -> mget (s_v T s) i j = 0)
  /\ forall k, coef (s_pv_flux_spectral T s) k = RtoC 0.
Proof.
  intros K T g res rs om nt Hg H HR HV s pv U G E. destruct (mk_grid_counts _ _ _ _ _ Hg) as [Q _]. split.
  - intros i j Hi Hj. rewrite (zonal_no_v T g H Q HR HV pv s U E G). now apply mget_mat_of.
  - intros k. rewrite (zonal_no_flux T g H Q HR HV pv s U E G). apply coef_zero.
Qed.
Print Assumptions C112_no_northward_wind.
(** All initial states of init.py are of this kind. *)
Lemma profile_state K T g (time : pyval K) u s : (g_ntrunc g < g_nlon g)%nat -> exact_on T g -> rotates T g ->
  built_from T g time u (Ok s) -> s_grid s = g /\ exists pv, zonally_uniform (g_nlat g) (g_nlon g) pv /\ s_pvs s = to_spectral T g pv.
Proof.
  intros Q H HR B. unfold built_from, state_from_wind, state_init in B. injection B as ->. split; [reflexivity|]. cbn [s_pvs]. eexists. split; [|reflexivity].
  assert (UM : forall h : nat -> R, zonally_uniform (g_nlat g) (g_nlon g) (mat_of (g_nlat g) (g_nlon g) (fun i _ => h i))).
  { intros h. split; [apply shaped_mat_of|]. intros i j Hi Hj. rewrite !mget_mat_of; auto; lia. }
  apply (uniform_add g Q); [apply fcor2_uniform; lia|]. apply (uniform_vorticity T g H Q HR); [apply UM|apply (UM (fun _ => 0))].
Qed.
Theorem C112_initial_states : forall K T g res rs om nt, mk_grid res rs om nt = Ok g -> exact_on T g -> rotates T g ->
  forall (time : pyval K) s,
  (motionless T g time = Ok s \/ (exists u pv, zonally_symmetric T g time u pv = Ok s) \/ (exists a, solid_body_rotation T g time a = Ok s)
   \/ (exists a c d, gaussian_jet T g time a c d = Ok s) \/ (exists a b c, held_1985 T g time a b c = Ok s)) ->
  s_grid s = g /\ exists pv, zonally_uniform (g_nlat g) (g_nlon g) pv /\ s_pvs s = to_spectral T g pv.
Proof.
  intros K T g res rs om nt Hg H HR time s HS. destruct (mk_grid_counts _ _ _ _ _ Hg) as [Q _].
  destruct HS as [E|[(u & pv & E)|[(a & E)|[(a & c & d & E)|(a & b & c & E)]]]].
  - unfold motionless, state_init in E. injection E as <-. split; [reflexivity|]. eexists. split; [|reflexivity]. apply fcor2_uniform. lia.
  - destruct u as [u|], pv as [pv|]; try discriminate E.
    + destruct u as [u| |]; try discriminate E. destruct (Nat.eq_dec (length u) (g_nlat g)) as [L|L].
      * rewrite C76_wind_profile in E by assumption. apply (profile_state K T g time (fun i => nth i u 0)); auto. now symmetry.
      * rewrite (proj1 (C76_rejected K T g time (Model_Region.A1 u) ltac:(intros x [= <-]; exact L))) in E. discriminate E.
    + destruct pv as [pv| |]; try discriminate E. destruct (Nat.eq_dec (length pv) (g_nlat g)) as [L|L].
      * rewrite C76_pv_profile in E by assumption. unfold state_init in E. injection E as <-. split; [reflexivity|]. eexists. split; [|reflexivity].
        split; [apply shaped_mat_of|]. intros i j Hi Hj. rewrite !mget_mat_of; auto; lia.
      * rewrite (proj2 (C76_rejected K T g time (Model_Region.A1 pv) ltac:(intros x [= <-]; exact L))) in E. discriminate E.
  - destruct (C77_solid_body_rotation K T res rs om nt g Hg time a) as [u [B _]]. rewrite E in B. now apply (profile_state K T g time u).
  - destruct (Req_dec d 0) as [->|D].
    + destruct (existsb (fun lat => Reqb lat c) (g_lat g)) eqn:X.
      * unfold gaussian_jet in E. destruct (Req_EM_T 0 0); [|lra]. rewrite X in E. discriminate E.
      * destruct (C77_gaussian_jet K T res rs om nt g Hg time a c 0) as [u [B _]].
        { intros _ I. assert (existsb (fun lat => Reqb lat c) (g_lat g) = true) by (apply existsb_exists; exists c; split; [assumption|now apply Reqb_true]). congruence. }
        rewrite E in B. now apply (profile_state K T g time u).
    + destruct (C77_gaussian_jet K T res rs om nt g Hg time a c d) as [u [B _]]; [easy|]. rewrite E in B. now apply (profile_state K T g time u).
  - destruct (C77_held_1985 K T res rs om nt g Hg time a b c) as [u [B _]]. rewrite E in B. now apply (profile_state K T g time u).
Qed.
Print Assumptions C112_initial_states.

(** PV 3, 2, 1 at the three latitudes: a wind of -1/2 at the equator that is kept
    for many steps *)
Definition zonal_pv : mat := mat_of 3 4 (fun i _ => 3 - INR i).
Definition zonal_example : state numR := mkState (d1_grid 1 1) (@VNum numR 100) (to_spectral d1_family (d1_grid 1 1) zonal_pv).
Example C112_nonvacuous : mk_grid 90 1 1 (Some 1%Z) = Ok (d1_grid 1 1) /\ exact_on d1_family (d1_grid 1 1)
  /\ rotates d1_family (d1_grid 1 1) /\ reverses d1_family (d1_grid 1 1) /\ zonally_uniform 3 4 zonal_pv
  /\ mget (s_u d1_family zonal_example) 1 0 = - (1 / 2)
  /\ (exists s, zonally_symmetric d1_family (d1_grid 1 1) (@VNum numR 100) None (Some (Model_Region.A1 [3; 2; 1])) = Ok s)
  /\ exists fuel f l, run d1_family (mkModel None 2 1 (Some zonal_pv)) fuel zonal_example (@VNum numR 7) (@VNum numR 120) (@VNum numR 10) = Ok (f, AStateList l)
  /\ mget (s_u d1_family f) 1 0 = - (1 / 2).
Proof.
  assert (Hg := d1_grid_ok 1 1 ltac:(lra)). assert (HE := d1_exact 1 1 ltac:(lra)). assert (HR := d1_rotates 1 1). assert (HV := d1_reverses 1 1).
  assert (U : zonally_uniform 3 4 zonal_pv). { split; [apply shaped_mat_of|]. intros i j Hi Hj. unfold zonal_pv. rewrite !mget_mat_of; auto; lia. }
  assert (W : mget (s_u d1_family zonal_example) 1 0 = - (1 / 2)).
  { unfold s_u, s_invert_pv, s_vorticity_spectral, zonal_example. cbn [s_grid s_pvs].
    unfold to_spectral, fcor2_spectral, to_spectral, wind, sph, d1_family, d1_grid. cbn [g_nlat g_nlon g_rsphere g_ntrunc sh_grdtospec sh_getuv as_spectral].
    assert (F : forall i j, (i < 3)%nat -> (j < 4)%nat -> mget (g_fcor2 (d1_grid 1 1)) i j = 2 * d1_sphi i).
    { intros i j Hi Hj. rewrite fcor2_grid by (cbn; assumption). rewrite lat_nth by (cbn; assumption). unfold coriolis, deg2rad. cbn [d1_grid g_omega g_nlat Nat.sub].
      destruct i as [|[|[|i]]]; [..|lia]; unfold d1_sphi; cbn [nth].
      - match goal with |- context [sin ?a] => replace a with (PI / 2) by (cbn; field) end. rewrite sin_PI2. ring.
      - match goal with |- context [sin ?a] => replace a with 0 by (cbn; field) end. rewrite sin_0. ring.
      - match goal with |- context [sin ?a] => replace a with (- (PI / 2)) by (cbn; field) end. rewrite sin_neg, sin_PI2. ring. }
    fold (d1_grid 1 1). unfold d1_getuv. cbn [fst]. rewrite mget_mat_of by lia. rewrite szeros_repeat, !coef_zero.
    unfold d1_analysis, row_mean, row_cos, row_sin. rewrite !F by lia. unfold zonal_pv. rewrite !mget_mat_of by lia. unfold d1_sphi, d1_cphi, d1_clam, d1_slam, coef. cbn. field. }
  do 6 (split; [assumption|]). split.
  { rewrite C76_pv_profile by reflexivity. unfold state_init. eauto. }
  destruct (C30_returns_numbers d1_family (mkModel None 2 1 (Some zonal_pv)) zonal_example 100 7 120 10) as [n1 [f1 [l1 H1]]]; try reflexivity; try exact I; try lra.
  exists n1, f1, l1. specialize (H1 n1 (le_n _)). split; [exact H1|].
  assert (FA : Forall (fun s => s_grid s = d1_grid 1 1 /\ s_pvs s = s_pvs zonal_example) (f1 :: items (AStateList l1))).
  { refine (C112_steady numR _ _ _ _ _ _ Hg HE HR HV _ _ zonal_example _ _ _ _ _ zonal_pv _ _ U _ _ H1); try reflexivity. right. exists zonal_pv. split; reflexivity. }
  inversion FA as [|? ? [G P] _]. rewrite <- W. unfold s_u, s_invert_pv, s_vorticity_spectral. rewrite G, P. reflexivity.
Qed.
