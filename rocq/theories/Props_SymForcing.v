(** Forcing terms on the rotated and on the reflected sphere (C113). *)
From Coq Require Export String.
From Verif Require Import Base Model_Grid Model_Time Model_Spectral Model_State Model_Run Model_RHS.
From Verif Require Import Spec_Grid Spec_Spectral Spec_State Spec_Instance Spec_Run Spec_RHS Spec_Sym Spec_Symmetry Spec_SymForcing.
From Verif Require Import Proofs_Base Proofs_Grid Proofs_Spectral Proofs_Instance Proofs_State Proofs_Run Proofs_Step Proofs_RHS Proofs_Orog Proofs_Sym Proofs_Symmetry Proofs_SymInst Proofs_SymForcing.
From Verif Require Import Props_Run Props_Symmetry.
From Coquelicot Require Import Complex.
From Coq Require Import List Lia Lra.
Import ListNotations.
Open Scope R_scope.

(** Forcing expressions built from numbers, functions, switches, relaxation and
    orography with +, * commute with rotations by any number of gridpoints if
    reference PV and relief are rotated ... *)
Theorem C113_rotated_forcing : forall K T g res rs om nt, mk_grid res rs om nt = Ok g -> exact_on T g -> rotates T g -> gradient_rotates T g ->
  forall n (a a' : obj K), alike_rotated g n a a' -> forall s, s_grid s = g -> length (s_pvs s) = nspec (g_ntrunc g) ->
  call T a' (rotated_by n s) = on_ok (map_value (rotate_by n (g_nlon g))) (call T a s).
Proof.
  intros K T g res rs om nt Hg H HR HG n a a' A s G L. destruct (mk_grid_counts _ _ _ _ _ Hg) as [_ [P _]].
  now apply (rotby_call T g H P HR n 1 a a' HG A).
Qed.
Print Assumptions C113_rotated_forcing.
(** ... and with reflection in the equator if a reference Coriolis parameter
    changes its sign, too. *)
Theorem C113_reflected_forcing : forall K T g res rs om nt, mk_grid res rs om nt = Ok g -> exact_on T g -> reflects T g -> gradient_reflects T g ->
  forall (a a' : obj K), alike_reflected g a a' -> forall s, s_grid s = g -> length (s_pvs s) = nspec (g_ntrunc g) ->
  call T a' (reflected s) = on_ok (map_value (mirror (-1))) (call T a s).
Proof.
  intros K T g res rs om nt Hg H HR HG a a' A s G L. destruct (mk_grid_counts _ _ _ _ _ Hg) as [_ [_ P]].
  now apply (refl_call T g H P HR (-1) a a' HG A).
Qed.
Print Assumptions C113_reflected_forcing.
(** Integrations with such forcing. *)
Theorem C113_rotated_run : forall K T g res rs om nt, mk_grid res rs om nt = Ok g -> exact_on T g -> rotates T g -> gradient_rotates T g ->
  forall n (a a' : obj K) order coeff bg fuel init dt tend se, alike_rotated g n a a' ->
  (forall b, bg = Some b -> shaped (g_nlat g) (g_nlon g) b) -> s_grid init = g -> length (s_pvs init) = nspec (g_ntrunc g) ->
  run T (mkModel (Some (call T a')) order coeff (option_map (rotate_by n (g_nlon g)) bg)) fuel (rotated_by n init) dt tend se
  = map_run (rotated_by n) (run T (mkModel (Some (call T a)) order coeff bg) fuel init dt tend se).
Proof.
  intros K T g res rs om nt Hg H HR HG n a a' order coeff bg fuel init dt tend se A B G L. destruct (mk_grid_counts _ _ _ _ _ Hg) as [_ [P _]].
  destruct (rotby_call T g H P HR n 1 a a' HG A) as [_ HC].
  apply (rotby_run T g H P HR n); [|assumption..]. split; [reflexivity|]. split; [reflexivity|]. cbn [m_bg m_rhs]. split.
  - destruct bg as [b|]; cbn [option_map]; [|exact I]. split; [now apply B|reflexivity].
  - split.
    + apply (alike_gridded T g H (rotated_by n) (fun _ => rotate_by n (g_nlon g)) 1 1 a a' A).
    + intros s Gs Ls. now apply HC.
Qed.
Print Assumptions C113_rotated_run.
Theorem C113_reflected_run : forall K T g res rs om nt, mk_grid res rs om nt = Ok g -> exact_on T g -> reflects T g -> gradient_reflects T g ->
  forall (a a' : obj K) order coeff bg fuel init dt tend se, alike_reflected g a a' ->
  (forall b, bg = Some b -> shaped (g_nlat g) (g_nlon g) b) -> s_grid init = g -> length (s_pvs init) = nspec (g_ntrunc g) ->
  run T (mkModel (Some (call T a')) order coeff (option_map (mirror (-1)) bg)) fuel (reflected init) dt tend se
  = map_run reflected (run T (mkModel (Some (call T a)) order coeff bg) fuel init dt tend se).
Proof.
  intros K T g res rs om nt Hg H HR HG a a' order coeff bg fuel init dt tend se A B G L. destruct (mk_grid_counts _ _ _ _ _ Hg) as [_ [_ P]].
  apply (refl_run T g H P HR); [|assumption..]. split; [reflexivity|]. split; [reflexivity|]. cbn [m_bg m_rhs]. split.
  - destruct bg as [b|]; cbn [option_map]; [|exact I]. split; [now apply B|reflexivity].
  - split; [apply (alike_gridded T g H reflected mirror (-1) (-1) a a' A)|]. intros s Gs Ls. now apply (refl_call T g H P HR (-1) a a' HG A).
Qed.
Print Assumptions C113_reflected_run.
(** If the forcing, the background and the initial PV repeat every n gridpoints,
    so do PV and wind of all states of the integration. *)
Theorem C113_repeats : forall K T g res rs om nt, mk_grid res rs om nt = Ok g -> exact_on T g -> rotates T g -> gradient_rotates T g ->
  forall n (a : obj K) order coeff bg fuel init dt tend se f r pv, alike_rotated g n a a ->
  (forall b, bg = Some b -> shaped (g_nlat g) (g_nlon g) b /\ repeats n (g_nlat g) (g_nlon g) b) ->
  shaped (g_nlat g) (g_nlon g) pv -> repeats n (g_nlat g) (g_nlon g) pv -> s_grid init = g -> s_pvs init = to_spectral T g pv ->
  run T (mkModel (Some (call T a)) order coeff bg) fuel init dt tend se = Ok (f, r) ->
  Forall (fun s => repeats n (g_nlat g) (g_nlon g) (s_pv T s) /\ repeats n (g_nlat g) (g_nlon g) (s_u T s) /\ repeats n (g_nlat g) (g_nlon g) (s_v T s)) (f :: items r).
Proof.
  intros K T g res rs om nt Hg H HR HG n a order coeff bg fuel init dt tend se f r pv A B S RP G E X. destruct (mk_grid_counts _ _ _ _ _ Hg) as [_ [P _]].
  assert (L : length (s_pvs init) = nspec (g_ntrunc g)) by (rewrite E; apply (A_len T g H)).
  pose proof (C113_rotated_run K T g res rs om nt Hg H HR HG n a a order coeff bg fuel init dt tend se A (fun b Eb => proj1 (B b Eb)) G L) as RR.
  assert (Eb : option_map (rotate_by n (g_nlon g)) bg = bg).
  { destruct bg as [b|]; [|reflexivity]. cbn. f_equal. destruct (B b eq_refl) as [Sb Rb]. now apply (repeats_rotate n (g_nlat g)). }
  assert (Ei : rotated_by n init = init).
  { unfold rotated_by. rewrite G, E, <- (rotby_ana T g P HR) by assumption. rewrite (proj1 (repeats_rotate n (g_nlat g) (g_nlon g) pv S) RP), <- E, <- G. now destruct init. }
  rewrite Eb, Ei, X in RR. pose proof (map_run_fixed (rotated_by n) (Ok (f, r)) f r (eq_sym RR) eq_refl) as FX.
  pose proof (run_good T g H _ fuel init dt tend se f r (conj G L) X) as ON.
  apply Forall_forall. intros s Hs. rewrite Forall_forall in FX, ON. destruct (ON s Hs) as [Gs Ls]. pose proof (FX s Hs) as Fs.
  destruct (rotby_fields T g H P HR n s Gs Ls) as [E1 [E2 E3]]. rewrite Fs in E1, E2, E3. destruct (uv_shaped T g H s Gs) as [SU SV].
  assert (SP : shaped (g_nlat g) (g_nlon g) (s_pv T s)) by (unfold s_pv; rewrite Gs; apply (B_shape T g H)).
  split; [|split]; apply repeats_rotate; auto.
Qed.
Print Assumptions C113_repeats.
(** ZonalSineMountains of wavenumber k repeat every n gridpoints if k*n is a
    multiple of the number of longitudes. *)
Theorem C113_sine_mountains : forall K g res rs om nt, mk_grid res rs om nt = Ok g ->
  forall height clat slat k n q h w x c, h <> 0 -> (k * n = q * g_nlon g)%nat ->
  alike_rotated (K := K) g n (POrog (mkOrog (RSine height clat slat (INR k)) h w x c)) (POrog (mkOrog (RSine height clat slat (INR k)) h w x c)).
Proof.
  intros K g res rs om nt Hg height clat slat k n q h w x c Hh Hk. destruct (mk_grid_counts _ _ _ _ _ Hg) as [_ [P _]].
  unfold alike_rotated. replace c with (option_map (Rmult 1) c) at 2 by (destruct c; cbn; [now rewrite Rmult_1_l|reflexivity]).
  apply alike_orography; [assumption|]. destruct (orography (RSine height clat slat (INR k)) g) as [m|e] eqn:E; [|reflexivity]. cbn [on_ok]. f_equal. symmetry.
  apply (repeats_rotate n (g_nlat g)); [eapply orography_shaped; exact E|]. now apply (sine_repeats g height clat slat k n q).
Qed.
Print Assumptions C113_sine_mountains.
(** Mountains centred on the equator are their own reflection. *)
Theorem C113_equatorial_mountains : forall K g res rs om nt, mk_grid res rs om nt = Ok g ->
  forall r h w x, h <> 0 -> (exists a b s t, r = RGauss a b 0 s t) \/ (exists a s k, r = RSine a 0 s k) ->
  alike_reflected (K := K) g (POrog (mkOrog r h w x None)) (POrog (mkOrog r h w x None)).
Proof.
  intros K g res rs om nt Hg r h w x Hh Hr. destruct (mk_grid_counts _ _ _ _ _ Hg) as [_ [_ P]].
  unfold alike_reflected. change (@None R) with (option_map (Rmult (-1)) None) at 2.
  apply alike_orography; [assumption|]. destruct (orography r g) as [m|e] eqn:E; [|reflexivity]. cbn [on_ok]. f_equal. symmetry. now apply (equatorial_symmetric g r).
Qed.
Print Assumptions C113_equatorial_mountains.
(** Every orography has a rotated and a reflected counterpart: the transformed
    relief given on the gridpoints. *)
Theorem C113_counterparts : forall K g res rs om nt, mk_grid res rs om nt = Ok g -> forall o, o_scale_height o <> 0 ->
  (forall n, exists o', alike_rotated (K := K) g n (POrog o) (POrog o')) /\ exists o', alike_reflected (K := K) g (POrog o) (POrog o').
Proof.
  intros K g res rs om nt Hg [r h w x c] Hh. cbn in Hh. destruct (mk_grid_counts _ _ _ _ _ Hg) as [_ [P Q]].
  assert (R' : forall F, (forall m, shaped (g_nlat g) (g_nlon g) m -> shaped (g_nlat g) (g_nlon g) (F m)) -> exists r', orography r' g = on_ok F (orography r g)).
  { intros F HF. destruct (orography r g) as [m|e] eqn:E.
    - exists (RField (g_lon g) (g_lat g) (F m)). cbn [on_ok]. apply field_relief; [lia|lia|]. apply HF. eapply orography_shaped. exact E.
    - exists r. exact E. }
  split.
  - intros n. destruct (R' (rotate_by n (g_nlon g))) as [r' Er]; [intros m S; now apply relabel_shaped|]. eexists. now apply alike_orography with (r' := r').
  - destruct (R' (mirror 1)) as [r' Er]; [intros m S; now apply shaped_mirror|]. eexists. now apply alike_orography with (r' := r').
Qed.
Print Assumptions C113_counterparts.

Lemma rotated_product K g n (a a' b b' : obj K) : alike_rotated g n a a' -> alike_rotated g n b b' -> alike_rotated g n (PProd a b) (PProd a' b').
Proof. intros A B. pose proof (alike_product _ _ _ _ _ _ _ _ _ _ A B) as Q. now rewrite Rmult_1_l in Q. Qed.
Lemma rotated_orography K g n r r' h w a c : h <> 0 -> orography r' g = on_ok (rotate_by n (g_nlon g)) (orography r g) ->
  alike_rotated (K := K) g n (POrog (mkOrog r h w a c)) (POrog (mkOrog r' h w a c)).
Proof.
  intros Hh E. pose proof (alike_orography (K := K) g (rotated_by n) (fun _ => rotate_by n (g_nlon g)) 1 r r' h w a c Hh E) as Q.
  replace (option_map (Rmult 1) c) with c in Q; [exact Q|]. destruct c; cbn; [now rewrite Rmult_1_l|reflexivity].
Qed.
(** A switched mountain in solid body rotation plus relaxation, and the same a
    quarter of the sphere further; the forcing at (equator, 90E) is 1/2 (mountain)
    plus 3 (1 - PV) (relaxation). *)
Definition ridge : mat := mat_of 3 4 (fun i j => d1_clam j * d1_cphi i).
Definition ridge_term (n : nat) : obj numR :=
  PSum (PProd (PSwitch (@VNum numR 110)) (POrog (mkOrog (RField (g_lon (d1_grid 1 1)) (g_lat (d1_grid 1 1)) (rotate_by n 4 ridge)) 2 WSbr 1 (Some 1))))
       (PRelax 3 (FMat (rotate_by n 4 eddy_bg))).
Example C113_nonvacuous : mk_grid 90 1 1 (Some 1%Z) = Ok (d1_grid 1 1) /\ exact_on d1_family (d1_grid 1 1) /\ rotates d1_family (d1_grid 1 1)
  /\ gradient_rotates d1_family (d1_grid 1 1) /\ reflects d1_family (d1_grid 1 1) /\ gradient_reflects d1_family (d1_grid 1 1)
  /\ s_grid example_init = d1_grid 1 1 /\ length (s_pvs example_init) = nspec (g_ntrunc (d1_grid 1 1)).
Proof.
  split; [apply d1_grid_ok; lra|]. split; [apply d1_exact; lra|]. split; [apply d1_rotates|]. split; [apply d1_gradient_rotates|]. split; [apply d1_reflects|].
  split; [apply d1_gradient_reflects|]. split; reflexivity.
Qed.
Example C113_ridge : alike_rotated (d1_grid 1 1) 1 (ridge_term 0) (ridge_term 1)
  /\ (exists F, call d1_family (ridge_term 0) example_init = Ok (FMat F) /\ mget F 1 1 = 1 / 2 + 3 * (1 - mget (s_pv d1_family example_init) 1 1)).
Proof.
  assert (SR : shaped 3 4 ridge) by apply shaped_mat_of. assert (SB : shaped 3 4 eddy_bg) by apply shaped_mat_of.
  assert (E0 : rotate_by 0 4 ridge = ridge) by (apply (rotate_by_0 3 4); [lia|assumption]). assert (E0' : rotate_by 0 4 eddy_bg = eddy_bg) by (apply (rotate_by_0 3 4); [lia|assumption]).
  assert (HE := d1_exact 1 1 ltac:(lra)). unfold ridge_term. rewrite E0, E0'. split.
  - unfold alike_rotated. apply alike_sum.
    + apply rotated_product; [apply alike_switch|]. apply rotated_orography; [lra|].
      rewrite !field_relief by (try apply relabel_shaped; cbn; auto; lia). reflexivity.
    + now apply (alike_relaxation (d1_grid 1 1) _ (fun _ => rotate_by 1 4) 1).
  - set (o := mkOrog _ _ _ _ _). destruct (orog_call_get d1_family (d1_grid 1 1) HE o example_init ridge) as [A [EA [SA GA]]].
    { reflexivity. } { cbn; lra. } { apply field_relief; cbn; auto; lia. }
    assert (SP : shaped 3 4 (s_pv d1_family example_init)) by apply (B_shape d1_family (d1_grid 1 1) HE).
    cbn [call]. unfold switch_call, relax_call. rewrite EA. cbn [example_init s_time py_le bind fbin].
    assert (ON : n_le numR 100 110 = true) by (apply Rleb_true; lra). rewrite ON.
    rewrite (same_shape_true 3 4 eddy_bg (s_pv d1_family example_init)) by assumption. cbn [bind].
    rewrite (same_shape_true 3 4) by (try apply shaped_mmap; try apply shaped_map2; assumption). eexists. split; [reflexivity|].
    rewrite (mget_map2 3 4) by (try lia; try apply shaped_mmap; try apply shaped_map2; assumption).
    rewrite !(mget_mmap 3 4) by (try lia; try apply shaped_map2; assumption). rewrite (mget_map2 3 4) by (try lia; assumption).
    rewrite GA by (cbn; lia). unfold forcing_f, forcing_u, forcing_v, o. cbn [o_fcor_ref o_wind o_fact o_scale_height].
    replace (mget eddy_bg 1 1) with 1 by (unfold eddy_bg; rewrite mget_mat_of by lia; reflexivity).
    rewrite lat_nth by (cbn; lia). cbn [d1_grid g_nlat Nat.sub INR]. unfold deg2rad.
    match goal with |- context [cos ?x] => replace x with 0 by field end. rewrite cos_0.
    replace (mget (fst (gradient d1_family (d1_grid 1 1) ridge)) 1 1) with (-1); [field|].
    unfold gradient, to_spectral, sph, d1_family, d1_grid. cbn [g_nlat g_nlon g_rsphere g_ntrunc sh_grdtospec sh_getgrad].
    unfold d1_getgrad, d1_analysis, row_cos, row_sin. cbn [fst]. rewrite mget_mat_of by lia. unfold coef. cbn [nth Re Im fst snd].
    unfold ridge. rewrite !mget_mat_of by lia. unfold d1_clam, d1_slam, d1_cphi. cbn. field.
Qed.
(** the mountains of wavenumber 2 on four longitudes repeat every two of them *)
Example C113_sine : (2 * 2 = 1 * g_nlon (d1_grid 1 1))%nat /\ repeats 2 3 4 (mat_of 3 4 (fun i j => INR i + INR (j mod 2)))
  /\ exists h, orography (RSine 100 45 10 (INR 2)) (d1_grid 1 1) = Ok h /\ mget h 0 0 <> mget h 0 1.
Proof.
  split; [reflexivity|]. split.
  - intros i j Hi Hj. rewrite !mget_mat_of by (auto; apply Nat.mod_upper_bound; lia). f_equal. f_equal. destruct j as [|[|[|[|j]]]]; cbn; lia.
  - eexists. split; [reflexivity|]. match goal with |- mget ?m _ _ <> _ => assert (E : orography (RSine 100 45 10 (INR 2)) (d1_grid 1 1) = Ok m) by reflexivity end.
    destruct (sine_mountain_get _ _ _ _ _ _ E) as [_ G]. rewrite !G by (cbn; lia). rewrite !lon_nth by (cbn; lia). cbn [d1_grid g_nlon INR]. unfold deg2rad.
    match goal with |- 100 * (1 / 2 * (1 + cos ?x)) * _ <> 100 * (1 / 2 * (1 + cos ?y)) * _ => replace x with 0 by field; replace y with PI by field end.
    rewrite cos_0, cos_PI. unfold gauss. match goal with |- _ * exp ?x <> _ => pose proof (exp_pos x) end. nra.
Qed.
