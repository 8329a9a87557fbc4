(** States: constructors, operators, lazily evaluated fields (C24-C29). *)
From Coq Require Export String.
From Verif Require Import Base Model_Grid Model_Time Model_Spectral Model_State Model_Lazy.
From Verif Require Import Spec_Grid Spec_Spectral Spec_State Spec_Instance.
From Verif Require Import Proofs_Base Proofs_Grid Proofs_Spectral Proofs_Instance Proofs_Lazy Proofs_State.
From Coquelicot Require Import Coquelicot.
From Coq Require Import List Lia Lra.
Open Scope R_scope.

(** C24: reads after any history of reads return what a fresh object returns and
    leave PV, grid and time alone; the values are functions of PV and grid *)
Theorem C24_lazy_unobservable : forall K (T : sphfam) (D : diagnostics) (s : state K) history a,
  let o := after T D (fresh s) history in
  fst (read T D a o) = fst (read T D a (fresh s))
  /\ o_pv_spectral o = s_pvs s /\ o_grid o = s_grid s /\ o_time o = s_time s.
Proof. exact (@lazy_unobservable). Qed.
Print Assumptions C24_lazy_unobservable.

Theorem C24_values : forall K (T : sphfam) (D : diagnostics) (s : state K) history a,
  fst (read T D a (after T D (fresh s) history)) = field_value T D s a.
Proof. exact (@lazy_values). Qed.
Print Assumptions C24_values.

Definition example_diagnostics : diagnostics :=
  mkDiag (fun g f => Ok (map vmean f)) (fun _ _ => Err ValueError) (fun _ f => Ok (map vmean f))
    (fun f _ => Ok f) (fun f => Ok f) (fun _ _ _ => Ok []).
Definition example_state : state numR := mkState (d1_grid 1 1) (@VNum numR 0) [RtoC 0; RtoC 5; Ci].

(** a history that fills slots and one failing read in it *)
Example C24_nonvacuous :
  let o := after d1_family example_diagnostics (fresh example_state) [Au; Afalwa; Apv; Apv_zonalized] in
  o_u o <> None /\ o_pv o <> None /\ o_pv_zonalized o <> None /\ o_falwa o = None
  /\ fst (read d1_family example_diagnostics Afalwa o) = Err ValueError
  /\ fst (read d1_family example_diagnostics Au o) = Ok (FM (s_u d1_family example_state)).
Proof. cbn. repeat split; discriminate. Qed.

(** C25 *)
Theorem C25_relative_vorticity : forall K T g, exact_on T g -> forall s : state K, on_grid T g s ->
  s_vorticity T s = msub (s_pv T s) (g_fcor2 g)
  /\ to_spectral T g (s_vorticity T s) = s_vorticity_spectral T s.
Proof.
  intros K T g H s Hs. split; [|exact (vort_spectral T g H s Hs)].
  destruct Hs as [E _]. unfold s_vorticity. now rewrite E.
Qed.
Print Assumptions C25_relative_vorticity.

Theorem C25_from_pv : forall K T g, forall (s : state K) (time : pyval K), on_grid T g s ->
  state_init T g time (Some (s_pv T s)) None = Ok (mkState g time (s_pvs s)).
Proof. exact (fun K T g => @from_pv T g K). Qed.
Print Assumptions C25_from_pv.

Theorem C25_from_vorticity : forall K T g, exact_on T g -> forall (s : state K) (time : pyval K), on_grid T g s ->
  state_from_vorticity T g time (s_vorticity T s) = Ok (mkState g time (s_pvs s)).
Proof. exact (fun K T g H => @from_vort T g H K). Qed.
Print Assumptions C25_from_vorticity.

(** the wind determines the state if the relative vorticity has no global mean ... *)
Theorem C25_from_wind_partial : forall K T g, exact_on T g -> forall (s : state K) (time : pyval K), on_grid T g s ->
  coef (s_vorticity_spectral T s) 0 = RtoC 0 ->
  state_from_wind T g time (s_u T s) (s_v T s) = Ok (mkState g time (s_pvs s)).
Proof. exact (fun K T g H => @from_wind T g H K). Qed.
Print Assumptions C25_from_wind_partial.

(** ... and only then *)
Theorem C25_from_wind_refuted : forall K T g, exact_on T g -> forall (s : state K) (time : pyval K) s', on_grid T g s ->
  coef (s_vorticity_spectral T s) 0 <> RtoC 0 ->
  state_from_wind T g time (s_u T s) (s_v T s) = Ok s' -> s_pvs s' <> s_pvs s.
Proof. exact (fun K T g H => @from_wind_mean T g H K). Qed.
Print Assumptions C25_from_wind_refuted.

(** states built from gridded fields meet [on_grid] *)
Theorem C25_gridded_states : forall K T g, exact_on T g -> forall f (time : pyval K) s,
  shaped (g_nlat g) (g_nlon g) f -> state_init T g time (Some f) None = Ok s -> on_grid T g s.
Proof. exact (fun K T g H => @gridded_on_grid T g H K). Qed.
Print Assumptions C25_gridded_states.

Lemma example_on_grid : on_grid d1_family (d1_grid 1 1) example_state.
Proof.
  split; [reflexivity|]. split; [reflexivity|]. unfold resolved. cbn -[Rmult Rplus Rdiv Ropp Rminus].
  unfold d1_analysis, row_mean, row_cos, row_sin. unfold mget. cbn -[Rmult Rplus Rdiv Ropp Rminus].
  unfold RtoC, Ci. list3; apply pair_eqC; cbn; try field; lra.
Qed.
Lemma example_vort : coef (s_vorticity_spectral d1_family example_state) 0 = RtoC 0.
Proof.
  unfold s_vorticity_spectral. rewrite coef_ssub; [|reflexivity|cbn; lia].
  change (s_pvs example_state) with [RtoC 0; RtoC 5; Ci]. change (s_grid example_state) with (d1_grid 1 1).
  unfold fcor2_spectral, to_spectral. cbn [sph d1_family sh_grdtospec]. unfold d1_analysis, row_mean, coef. cbn [nth].
  assert (E : forall i j, (i < 3)%nat -> (j < 4)%nat -> mget (g_fcor2 (d1_grid 1 1)) i j = coriolis (d1_grid 1 1) (nth i (g_lat (d1_grid 1 1)) 0)).
  { intros. now apply fcor2_grid. }
  rewrite !E by lia.
  assert (L : nth 2 (g_lat (d1_grid 1 1)) 0 = - nth 0 (g_lat (d1_grid 1 1)) 0).
  { unfold g_lat, d1_grid. cbn. lra. }
  rewrite L. unfold coriolis. replace (deg2rad (- nth 0 (g_lat (d1_grid 1 1)) 0)) with (- deg2rad (nth 0 (g_lat (d1_grid 1 1)) 0)) by (unfold deg2rad; field).
  rewrite sin_neg. unfold Cminus, Cplus, Copp, RtoC. cbn [fst snd]. apply pair_eqC; field.
Qed.

Example C25_nonvacuous : exact_on d1_family (d1_grid 1 1) /\ on_grid d1_family (d1_grid 1 1) example_state
  /\ coef (s_vorticity_spectral d1_family example_state) 0 = RtoC 0
  /\ mk_grid 90 1 1 (Some 1%Z) = Ok (d1_grid 1 1).
Proof.
  split; [apply d1_exact; lra|]. split; [apply example_on_grid|]. split; [apply example_vort|]. apply d1_grid_ok. lra.
Qed.

(** C26 *)
Theorem C26_add_vorticity_field : forall K T g, exact_on T g -> forall (s : state K) f, on_grid T g s ->
  shaped (g_nlat g) (g_nlon g) f ->
  exists s', add_vorticity T s (VoField f) = Ok s' /\ on_grid T g s' /\ s_time s' = s_time s
    /\ s_vorticity_spectral T s' = sadd (s_vorticity_spectral T s) (to_spectral T g f)
    /\ (to_grid T g (to_spectral T g f) = f -> s_vorticity T s' = madd (s_vorticity T s) f).
Proof. exact (fun K T g H => @add_vorticity_field T g H K). Qed.
Print Assumptions C26_add_vorticity_field.

Theorem C26_add_vorticity_state : forall K T g, exact_on T g -> forall s o : state K, on_grid T g s -> on_grid T g o ->
  exists s', add_vorticity T s (VoState o true) = Ok s' /\ on_grid T g s' /\ s_time s' = s_time s
    /\ s_vorticity_spectral T s' = sadd (s_vorticity_spectral T s) (s_vorticity_spectral T o)
    /\ (to_grid T g (fcor2_spectral T g) = g_fcor2 g -> s_vorticity T s' = madd (s_vorticity T s) (s_vorticity T o)).
Proof. exact (fun K T g H => @add_vorticity_state T g H K). Qed.
Print Assumptions C26_add_vorticity_state.

Theorem C26_add_wind_state_partial : forall K T g, exact_on T g -> forall s o : state K, on_grid T g s -> on_grid T g o ->
  exists s', add_wind T s (WState o true) = Ok s' /\ on_grid T g s' /\ s_time s' = s_time s
    /\ s_u T s' = madd (s_u T s) (s_u T o) /\ s_v T s' = madd (s_v T s) (s_v T o).
Proof. exact (fun K T g H => @add_wind_state T g H K). Qed.
Print Assumptions C26_add_wind_state_partial.

(** a tuple of winds replaces the wind instead of being added *)
Theorem C26_add_wind_tuple_replaces : forall K T (s : state K) u v,
  shaped (g_nlat (s_grid s)) (g_nlon (s_grid s)) u -> shaped (g_nlat (s_grid s)) (g_nlon (s_grid s)) v ->
  add_wind T s (WTuple u v) = state_from_wind T (s_grid s) (s_time s) u v.
Proof. exact (@add_wind_tuple). Qed.
Print Assumptions C26_add_wind_tuple_replaces.

Theorem C26_add_wind_tuple_refuted : exists g (s s' : state numR) z, exact_on d1_family g /\ on_grid d1_family g s
  /\ shaped (g_nlat g) (g_nlon g) z
  /\ add_wind d1_family s (WTuple z z) = Ok s' /\ s_u d1_family s' <> madd (s_u d1_family s) z.
Proof. exact add_wind_tuple_refuted. Qed.
Print Assumptions C26_add_wind_tuple_refuted.

(** hypotheses of the C26 theorems; planetary vorticity is represented exactly *)
Example C26_nonvacuous : exact_on d1_family (d1_grid 1 1) /\ on_grid d1_family (d1_grid 1 1) example_state
  /\ shaped 3 4 (mat_of 3 4 (fun i j => d1_sphi i))
  /\ d1_synthesis (d1_analysis (mat_of 3 4 (fun i j => d1_sphi i)) 1) = mat_of 3 4 (fun i j => d1_sphi i).
Proof.
  split; [apply d1_exact; lra|]. split; [apply example_on_grid|]. split; [apply shaped_mat_of|].
  apply (mat_ext 3 4); [apply shaped_mat_of|apply shaped_mat_of|]. intros i j Hi Hj.
  unfold d1_synthesis, d1_analysis. rewrite !mget_mat_of by auto. unfold row_mean, row_cos, row_sin.
  rewrite !mget_mat_of by lia. unfold coef, d1_sphi, d1_clam, d1_slam, d1_cphi. cbn [nth Re Im RtoC fst snd].
  destruct i as [|[|[|i]]]; try lia; cbn [nth]; field.
Qed.

(** C27: the method always fails (the name u in its body is not defined) *)
Theorem C27_refuted : forall T g u v, vorticity_divergence T g u v = Err NameError.
Proof. exact vortdiv_refuted. Qed.
Print Assumptions C27_refuted.

(** C28 *)
Theorem C28_roundtrip : forall K T earth g (s : state K) (time : pyval K), exact_on T g -> on_grid T g s ->
  from_hn2016 T earth (Some g) time (as_hn2016 T s) = Ok (mkState g time (s_pvs s))
  /\ length (bf_ylat (as_hn2016 T s)) = g_nlat g
  /\ (forall i, (i < g_nlat g)%nat -> nth i (bf_ylat (as_hn2016 T s)) 0 = nth (g_nlat g - 1 - i) (g_lat g) 0)
  /\ (forall i, (i < g_nlat g)%nat -> nth i (bf_pv (as_hn2016 T s)) [] = nth (g_nlat g - 1 - i) (s_pv T s) []).
Proof. exact (@hn2016_roundtrip). Qed.
Print Assumptions C28_roundtrip.
Example C28_nonvacuous : exact_on d1_family (d1_grid 1 1) /\ on_grid d1_family (d1_grid 1 1) example_state.
Proof. split; [apply d1_exact; lra|apply example_on_grid]. Qed.

(** C29 *)
Theorem C29_nonnegative : forall K (T : sphfam) (s : state K),
  (Forall (Forall (fun x => 0 <= x)) (s_enstrophy T s) /\ Forall (Forall (fun x => 0 <= x)) (s_eddy_enstrophy T s))
  /\ forall nr nc, shaped nr nc (s_u T s) -> shaped nr nc (s_v T s) ->
     shaped nr nc (s_energy T s) /\ forall i j, (i < nr)%nat -> (j < nc)%nat -> 0 <= mget (s_energy T s) i j.
Proof. intros K T s. split; [apply enstrophy_nonneg|]. intros nr nc. apply energy_nonneg. Qed.
Print Assumptions C29_nonnegative.

Theorem C29_values : forall K (T : sphfam) (s : state K) nr nc i j,
  shaped nr nc (s_pv T s) -> shaped nr nc (s_u T s) -> shaped nr nc (s_v T s) -> (i < nr)%nat -> (j < nc)%nat ->
  mget (s_enstrophy T s) i j = mget (s_pv T s) i j ^ 2 / 2
  /\ mget (s_eddy_enstrophy T s) i j = (mget (s_pv T s) i j - vmean (nth i (s_pv T s) [])) ^ 2 / 2
  /\ mget (s_energy T s) i j = (mget (s_u T s) i j ^ 2 + mget (s_v T s) i j ^ 2) / 2.
Proof.
  intros K T s nr nc i j Hq Hu Hv Hi Hj. destruct (enstrophy_value nr nc (s_pv T s) i j Hq Hi Hj) as [E1 E2].
  split; [exact E1|]. split; [exact E2|]. now apply (energy_value nr nc).
Qed.
Print Assumptions C29_values.

Theorem C29_eddy_zero : forall K (T : sphfam) (s : state K),
  Forall (Forall (fun x => x = 0)) (s_eddy_enstrophy T s)
  <-> Forall (fun row => forall x y, In x row -> In y row -> x = y) (s_pv T s).
Proof. intros K T s. apply eddy_zero_iff. Qed.
Print Assumptions C29_eddy_zero.

Theorem C29_decomposition : forall K (T : sphfam) (s : state K) i, (i < length (s_pv T s))%nat -> nth i (s_pv T s) [] <> [] ->
  vmean (nth i (s_enstrophy T s) []) = 1 / 2 * vmean (nth i (s_pv T s) []) ^ 2 + vmean (nth i (s_eddy_enstrophy T s) []).
Proof. intros K T s i. apply enstrophy_decomposition. Qed.
Print Assumptions C29_decomposition.
Example C29_nonvacuous : (1 < length (s_pv d1_family example_state))%nat /\ nth 1 (s_pv d1_family example_state) [] <> []
  /\ shaped 3 4 (s_u d1_family example_state) /\ shaped 3 4 (s_v d1_family example_state)
  /\ mget (s_pv d1_family example_state) 1 1 <> mget (s_pv d1_family example_state) 1 3.
Proof.
  split; [cbn; lia|]. split; [cbn; discriminate|].
  assert (HE : exact_on d1_family (d1_grid 1 1)) by (apply d1_exact; lra).
  split; [apply (et_wind_shape _ _ _ _ HE)|]. split; [apply (et_wind_shape _ _ _ _ HE)|].
  unfold s_pv, to_grid. cbn [sph d1_family sh_spectogrd]. unfold d1_synthesis. rewrite !mget_mat_of by lia.
  unfold coef, d1_sphi, d1_clam, d1_slam, d1_cphi. cbn. lra.
Qed.

(** ** C95: the constructor *)
Theorem C95_one_argument : forall K T g (time : pyval K) pv pv_spectral,
  ((exists s, state_init T g time pv pv_spectral = Ok s) <-> (pv = None <-> pv_spectral <> None))
  /\ (pv <> None -> pv_spectral <> None -> state_init T g time pv pv_spectral = Err AssertionError).
Proof.
  intros K T g time [f|] [x|]; (split; [split|]); intros H.
  - destruct H as [s H]. discriminate H.
  - destruct H as [_ H]. discriminate H. discriminate.
  - reflexivity.
  - split; intros E; [discriminate E|now destruct E].
  - eexists. reflexivity.
  - intros E. now destruct E.
  - split; intros E; [discriminate|reflexivity].
  - eexists. reflexivity.
  - now destruct H.
  - destruct H as [s H]. discriminate H.
  - destruct H as [H _]. now destruct (H eq_refl).
  - now destruct H.
Qed.
Print Assumptions C95_one_argument.
Theorem C95_attributes : forall K T g (time : pyval K) pv pv_spectral s, state_init T g time pv pv_spectral = Ok s ->
  s_grid s = g /\ s_time s = time /\ (forall x, pv_spectral = Some x -> s_pvs s = x)
  /\ forall f, pv = Some f -> exact_on T g -> shaped (g_nlat g) (g_nlon g) f ->
       to_spectral T g (s_pv T s) = to_spectral T g f /\ (forall x, resolved (sph T g) (g_ntrunc g) x -> f = to_grid T g x -> s_pv T s = f).
Proof.
  intros K T g time pv pvs s H. destruct pv as [f|], pvs as [x|]; try discriminate; apply Ok_inj in H; subst s; (split; [reflexivity|]); (split; [reflexivity|]); (split; [cbn [s_pvs]; congruence|]).
  - intros f0 E X Sf. assert (f0 = f) as -> by congruence. unfold s_pv. cbn [s_grid s_pvs]. split.
    + exact (proj2 (proj2 (@gridded_on_grid T g X K f time _ Sf eq_refl))).
    + intros x R ->. unfold to_grid, to_spectral. f_equal. exact R.
  - congruence.
Qed.
Print Assumptions C95_attributes.
Example C95_nonvacuous : exact_on d1_family (d1_grid 1 1) /\ shaped (g_nlat (d1_grid 1 1)) (g_nlon (d1_grid 1 1)) (s_pv d1_family example_state)
  /\ (exists s, state_init d1_family (d1_grid 1 1) (@VNum numR 0) (Some (s_pv d1_family example_state)) None = Ok s)
  /\ resolved (sph d1_family (d1_grid 1 1)) (g_ntrunc (d1_grid 1 1)) (s_pvs example_state) /\ s_pv d1_family example_state = to_grid d1_family (d1_grid 1 1) (s_pvs example_state).
Proof.
  split; [apply d1_exact; lra|]. split; [apply shaped_mat_of|]. split; [now eexists|]. split; [apply example_on_grid|reflexivity].
Qed.
