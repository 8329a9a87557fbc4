(** Forcing terms (C39-C46). *)
From Coq Require Export String.
From Verif Require Import Base Model_Grid Model_Time Model_Spectral Model_State Model_Run Model_RHS.
From Verif Require Import Spec_Grid Spec_Spectral Spec_State Spec_Instance Spec_Run Spec_RHS.
From Verif Require Import Proofs_Base Proofs_Grid Proofs_Spectral Proofs_Instance Proofs_State Proofs_Run Proofs_Step Proofs_RHS Proofs_Orog.
From Coquelicot Require Import Coquelicot.
From Coq Require Import List Lia Lra Sorted.
Open Scope R_scope.

(** C39: expressions of callable terms ... *)
Theorem C39_pointwise_partial : forall K T (s : state K) nr nc (vals : obj K -> fval) e o, build e = Ok o ->
  (forall l, In l (leaves e) -> call T l s = Ok (vals l) /\ fits nr nc (vals l)) ->
  exists v, call T o s = Ok v /\ fits nr nc v
  /\ forall i j, (i < nr)%nat -> (j < nc)%nat -> fat v i j = expr_value (fun l => fat (vals l) i j) e.
Proof. intros K T s nr nc vals e. exact (expr_pointwise T s nr nc vals e). Qed.
Print Assumptions C39_pointwise_partial.
Theorem C39_builds : forall K (e : rhs_expr K), (forall l, In l (leaves e) -> is_rhs l = true) -> exists o, build e = Ok o /\ is_rhs o = true.
Proof. exact (@build_rhs). Qed.
Print Assumptions C39_builds.
(** ... but numbers can be added and multiplied only to fail when evaluated *)
Theorem C39_numbers_refuted : forall K T (t : obj K) c, is_rhs t = true -> exists a b p q,
  op_add t (PNum c) = Ok a /\ op_add (PNum c) t = Ok b /\ op_mul t (PNum c) = Ok p /\ op_mul (PNum c) t = Ok q
  /\ forall s, call T b s = Err TypeError /\ call T q s = Err TypeError
     /\ forall v, call T t s = Ok v -> call T a s = Err TypeError /\ call T p s = Err TypeError.
Proof. exact (@number_operand). Qed.
Print Assumptions C39_numbers_refuted.
(** switch * (relaxation + function) *)
Definition example_expr : rhs_expr numR :=
  EMul (ELeaf (PSwitch (@VNum numR 100))) (EAdd (ELeaf (PRelax 2 (FNum 1))) (ELeaf (PFun (fun s => Ok (FMat (s_u d1_family s)))))).
Definition example_term : obj numR := PRelax 2 (FNum 1).
Definition example_s : state numR := mkState (d1_grid 1 1) (@VNum numR 100) [RtoC 0; RtoC 5; Ci].
Example C39_nonvacuous : exists o, build example_expr = Ok o /\ is_rhs o = true
  /\ forall l, In l (leaves example_expr) -> exists v, call d1_family l example_s = Ok v /\ fits 3 4 v.
Proof.
  eexists. split; [reflexivity|]. split; [reflexivity|]. intros l [<-|[<-|[<-|[]]]]; cbn [call].
  - eexists. split; [unfold switch_call; cbn; reflexivity|]. exact I.
  - eexists. split; [reflexivity|]. cbn [fits]. do 2 apply shaped_mmap. apply shaped_mat_of.
  - eexists. split; [reflexivity|]. cbn [fits]. apply shaped_mat_of.
Qed.

(** C40 *)
Theorem C40_switch_numbers : forall T g x (tend t : R),
  call T (PSwitch (@VNum numR tend)) (mkState g (@VNum numR t) x) = Ok (FNum 1) /\ t <= tend
  \/ call T (PSwitch (@VNum numR tend)) (mkState g (@VNum numR t) x) = Ok (FNum 0) /\ tend < t.
Proof. intros T g x tend t. rewrite switch_R. destruct (Rleb_spec t tend) as [L|L]; auto. Qed.
Print Assumptions C40_switch_numbers.
Theorem C40_switch_dates : forall K T g x tend t,
  call (K := K) T (PSwitch (VDate tend)) (mkState g (VDate t) x) = Ok (FNum 1) /\ (t <= tend)%Z
  \/ call (K := K) T (PSwitch (VDate tend)) (mkState g (VDate t) x) = Ok (FNum 0) /\ (tend < t)%Z.
Proof. intros K T g x tend t. cbn. unfold switch_call. cbn. destruct (Z.leb_spec t tend) as [L|L]; auto. Qed.
Print Assumptions C40_switch_dates.
(** ordered times: ones, then zeros forever *)
Theorem C40_sequence_numbers : forall T g x (tend : R) (ts : list R), StronglySorted Rle ts ->
  exists a b, map (fun t : R => call T (PSwitch (@VNum numR tend)) (mkState g (@VNum numR t) x)) ts
    = repeat (Ok (FNum 1)) a ++ repeat (Ok (FNum 0)) b.
Proof.
  intros T g x tend ts HS. destruct (switch_sequence Rle (fun t => Rleb t tend)) with (ts := ts) as [a [La E]].
  - intros u v Huv Hv. apply Rleb_true in Hv. apply Rleb_true. lra.
  - exact HS.
  - exists a, (length ts - a)%nat. transitivity (map (fun b : bool => Ok (FNum (if b then 1 else 0))) (map (fun t => Rleb t tend) ts)).
    + rewrite map_map. apply map_ext. intros t. apply switch_R.
    + rewrite E, map_app, !map_repeat. reflexivity.
Qed.
Print Assumptions C40_sequence_numbers.
Theorem C40_sequence_dates : forall K T g x tend (ts : list Z), StronglySorted Z.le ts ->
  exists a b, map (fun t => call (K := K) T (PSwitch (VDate tend)) (mkState g (VDate t) x)) ts
    = repeat (Ok (FNum 1)) a ++ repeat (Ok (FNum 0)) b.
Proof.
  intros K T g x tend ts HS. destruct (switch_sequence Z.le (fun t => Z.leb t tend)) with (ts := ts) as [a [La E]].
  - intros u v Huv Hv. lia.
  - exact HS.
  - exists a, (length ts - a)%nat. transitivity (map (fun b : bool => Ok (FNum (if b then 1 else 0))) (map (fun t => Z.leb t tend) ts)).
    + rewrite map_map. apply map_ext. intros t. reflexivity.
    + rewrite E, map_app, !map_repeat. reflexivity.
Qed.
Print Assumptions C40_sequence_dates.
(** multiplied with a term *)
Theorem C40_product : forall T g x (tend t : R) (f : obj numR) F nr nc, shaped nr nc F ->
  call T f (mkState g (@VNum numR t) x) = Ok (FMat F) ->
  exists v, op_mul f (PSwitch (@VNum numR tend)) = Ok v
  /\ call T v (mkState g (@VNum numR t) x) = Ok (FMat (if Rle_dec t tend then F else mat_of nr nc (fun _ _ => 0))).
Proof.
  intros T g x tend t f F nr nc HF E. exists (PProd f (PSwitch (@VNum numR tend))). split.
  - unfold op_mul. cbn [is_rhs]. now rewrite orb_true_r.
  - cbn [call]. rewrite E. cbn [bind]. unfold switch_call. cbn [s_time py_le bind]. change (n_le numR) with Rleb. unfold Rleb. cbn [fbin].
    destruct (Rle_dec t tend) as [L|L]; f_equal; f_equal; apply (mat_ext nr nc); auto using shaped_mmap, shaped_mat_of; intros i j Hi Hj;
      rewrite (mget_mmap nr nc (fun y => y * _)) by auto; rewrite ?mget_mat_of by auto; ring.
Qed.
Print Assumptions C40_product.
(** numbers and dates cannot be compared *)
Theorem C40_mixing : forall T g x (tend : Z) (t : R),
  call T (PSwitch (VDate tend)) (mkState g (@VNum numR t) x) = Err TypeError
  /\ call T (PSwitch (@VNum numR t)) (mkState g (VDate tend) x) = Err TypeError.
Proof. intros. split; reflexivity. Qed.
Print Assumptions C40_mixing.
Example C40_nonvacuous : StronglySorted Rle [0; 5; 5; 8] /\ StronglySorted Z.le [0; 5; 5; 8]%Z
  /\ exists F, call d1_family (PFun (fun s => Ok (FMat (s_u d1_family s)))) example_s = Ok (FMat F) /\ shaped 3 4 F.
Proof.
  split; [repeat constructor; lra|]. split; [repeat constructor; lia|]. eexists. split; [reflexivity|]. apply shaped_mat_of.
Qed.

(** C41 *)
Theorem C41_relaxation : forall K T g, exact_on T g -> forall (s : state K) rate ref, s_grid s = g -> shaped (g_nlat g) (g_nlon g) ref ->
  exists F, call T (PRelax rate (FMat ref)) s = Ok (FMat F) /\ shaped (g_nlat g) (g_nlon g) F
  /\ forall i j, (i < g_nlat g)%nat -> (j < g_nlon g)%nat ->
     mget F i j = rate * (mget ref i j - mget (s_pv T s) i j)
     /\ (rate <> 0 -> (mget F i j = 0 <-> mget (s_pv T s) i j = mget ref i j))
     /\ (forall dt, 0 <= rate * dt <= 1 -> let q := mget (s_pv T s) i j + dt * mget F i j in
         q - mget ref i j = (1 - rate * dt) * (mget (s_pv T s) i j - mget ref i j)
         /\ Rabs (q - mget ref i j) <= Rabs (mget (s_pv T s) i j - mget ref i j)
         /\ 0 <= (q - mget ref i j) * (mget (s_pv T s) i j - mget ref i j)).
Proof.
  intros K T g H s rate ref E HR. destruct (relax_value T g H s rate ref E HR) as [F [EF [_ [SF V]]]]. exists F.
  split; [exact EF|]. split; [exact SF|]. intros i j Hi Hj. rewrite (V i j Hi Hj).
  set (p := mget (s_pv T s) i j). set (r := mget ref i j). split; [reflexivity|]. split.
  - intros Hr. split; intros Q; [|rewrite Q; ring]. apply Rmult_integral in Q. destruct Q; lra.
  - intros dt Hd. cbn zeta.
    assert (EQ : p + dt * (rate * (r - p)) - r = (1 - rate * dt) * (p - r)) by ring. rewrite EQ. split; [reflexivity|]. split.
    + rewrite Rabs_mult, (Rabs_right (1 - rate * dt)) by lra. pose proof (Rabs_pos (p - r)). nra.
    + pose proof (pow2_ge_0 (p - r)). nra.
Qed.
Print Assumptions C41_relaxation.
(** in an Euler step of the model: up to the advection, which does not act on the mean *)
Theorem C41_euler_step : forall K T g, exact_on T g -> forall res rs om nt, mk_grid res rs om nt = Ok g ->
  forall (M : bmodel K) (s new : state K) rate ref dt h, on_grid T g s -> shaped (g_nlat g) (g_nlon g) ref ->
  m_rhs M = Some (call T (PRelax rate (FMat ref))) -> m_coeff M = 0 -> m_bg M = None ->
  to_seconds dt = Ok h -> euler T M s dt = Ok new ->
  length (s_pvs new) = nspec (g_ntrunc g)
  /\ (forall k, (k < nspec (g_ntrunc g))%nat ->
    (coef (s_pvs new) k - coef (to_spectral T g ref) k
     = RtoC (1 - rate * h) * (coef (s_pvs s) k - coef (to_spectral T g ref) k) - RtoC h * coef (s_pv_flux_spectral T s) k)%C)
  /\ (coef (s_pvs new) 0 - coef (to_spectral T g ref) 0 = RtoC (1 - rate * h) * (coef (s_pvs s) 0 - coef (to_spectral T g ref) 0))%C.
Proof. intros K T g H res rs om nt. exact (relax_euler T g H res rs om nt). Qed.
Print Assumptions C41_euler_step.
Example C41_nonvacuous : exact_on d1_family (d1_grid 1 1) /\ mk_grid 90 1 1 (Some 1%Z) = Ok (d1_grid 1 1)
  /\ on_grid d1_family (d1_grid 1 1) example_s /\ shaped 3 4 (mat_of 3 4 (fun i j => INR i))
  /\ exists new, euler d1_family (mkModel (Some (call d1_family (PRelax (1/2) (FMat (mat_of 3 4 (fun i j => INR i)))))) 2 0 None) example_s (@VNum numR 1) = Ok new.
Proof.
  assert (HE : exact_on d1_family (d1_grid 1 1)) by (apply d1_exact; lra).
  split; [exact HE|]. split; [apply d1_grid_ok; lra|]. split; [|split; [apply shaped_mat_of|]].
  - split; [reflexivity|]. split; [reflexivity|]. unfold resolved.
    change (d1_analysis (d1_synthesis [RtoC 0; RtoC 5; Ci]) 1 = [RtoC 0; RtoC 5; Ci]).
    unfold d1_analysis, row_mean, row_cos, row_sin, d1_synthesis. rewrite !mget_mat_of by lia.
    unfold coef, d1_sphi, d1_clam, d1_slam, d1_cphi. cbn [nth Re Im RtoC fst snd Ci].
    list3; apply pair_eqC; cbn; lra.
  - unfold euler, pv_tendency_spectral. cbn [m_rhs call to_seconds bind].
    destruct (relax_value d1_family (d1_grid 1 1) HE example_s (1/2) (mat_of 3 4 (fun i j => INR i)) eq_refl (shaped_mat_of _ _ _)) as [F [EF _]].
    rewrite EF. cbn [bind example_s s_time py_add]. eauto.
Qed.

(** C42 *)
Theorem C42_same_grid : forall h g, (0 < g_nlat g)%nat -> (0 < g_nlon g)%nat -> shaped (g_nlat g) (g_nlon g) h ->
  orography (RField (g_lon g) (g_lat g) h) g = Ok h.
Proof.
  intros h g H1 H2 HS. cbn [orography]. destruct (interp_orography_ok (g_lon g) (g_lat g) h g) as [m E]; rewrite ?lat_length, ?lon_length; auto.
  rewrite E. f_equal. exact (orography_same_grid h g m E).
Qed.
Print Assumptions C42_same_grid.
Theorem C42_interpolation : forall lon lat h g, strictly_increasing lon -> strictly_decreasing lat ->
  (0 < length lon)%nat -> (0 < length lat)%nat -> shaped (length lat) (length lon) h ->
  exists m, orography (RField lon lat h) g = Ok m /\ shaped (g_nlat g) (g_nlon g) m
  /\ (forall i j a b, (i < g_nlat g)%nat -> (j < g_nlon g)%nat -> (a < length lat)%nat -> (b < length lon)%nat ->
      nth i (g_lat g) 0 = nth a lat 0 -> nth j (g_lon g) 0 = nth b lon 0 -> mget m i j = mget h a b)
  /\ (forall lo hi, Forall (Forall (fun x => lo <= x <= hi)) h ->
      forall i j, (i < g_nlat g)%nat -> (j < g_nlon g)%nat -> lo <= mget m i j <= hi).
Proof.
  intros lon lat h g H1 H2 H3 H4 HS. destruct (interp_orography_ok lon lat h g H4 H3 HS) as [m E]. exists m.
  split; [exact E|]. split; [apply (interp_orography_value _ _ _ _ _ E)|]. split.
  - intros i j a b. intros. eapply orography_nodes; eauto.
  - intros lo hi HB. eapply orography_bounds; eauto.
Qed.
Print Assumptions C42_interpolation.
(** one-dimensional interpolation is linear between neighbouring nodes *)
Theorem C42_linear : forall xp fp x k, strictly_increasing xp -> (k + 1 < length xp)%nat -> nth k xp 0 <= x < nth (k + 1) xp 0 ->
  np_interp x xp fp = nth k fp 0 + (nth (k + 1) fp 0 - nth k fp 0) / (nth (k + 1) xp 0 - nth k xp 0) * (x - nth k xp 0).
Proof. exact interp_linear. Qed.
Print Assumptions C42_linear.
Example C42_nonvacuous : strictly_increasing [0; 120; 240; 360] /\ strictly_decreasing [90; 10; -50] /\ shaped 3 4 (mat_of 3 4 (fun i j => INR (i + j)))
  /\ shaped (g_nlat (d1_grid 1 1)) (g_nlon (d1_grid 1 1)) (mat_of 3 4 (fun i j => INR (i + j)))
  /\ nth 0 (g_lat (d1_grid 1 1)) 0 = nth 0 [90; 10; -50] 0 /\ nth 0 (g_lon (d1_grid 1 1)) 0 = nth 0 [0; 120; 240; 360] 0.
Proof.
  repeat split; try apply shaped_mat_of.
  - intros i j Hij Hj. cbn in Hj. destruct i as [|[|[|i]]], j as [|[|[|[|j]]]]; try lia; cbn; lra.
  - intros i j Hij Hj. cbn in Hj. destruct i as [|[|[|i]]], j as [|[|[|j]]]; try lia; cbn; lra.
  - rewrite lat_nth by (cbn; lia). cbn. lra.
  - rewrite lon_nth by (cbn; lia). cbn. lra.
Qed.

(** C43 *)
Theorem C43_forcing : forall K T g, exact_on T g -> forall o (s : state K) h, s_grid s = g -> o_scale_height o <> 0 ->
  orography (o_relief o) g = Ok h ->
  exists F, call T (POrog o) s = Ok (FMat F) /\ shaped (g_nlat g) (g_nlon g) F
  /\ forall i j, (i < g_nlat g)%nat -> (j < g_nlon g)%nat -> mget F i j
     = - forcing_f g o i / o_scale_height o
       * (forcing_u T g o s i j * mget (fst (gradient T g h)) i j + forcing_v T o s i j * mget (snd (gradient T g h)) i j).
Proof. intros K T g H. exact (orog_call_get T g H). Qed.
Print Assumptions C43_forcing.
Theorem C43_linear_in_wind : forall K T g, exact_on T g -> forall o (s : state K) h a b x y, s_grid s = g -> o_scale_height o <> 0 ->
  orography (o_relief o) g = Ok h ->
  exists F X Y, call T (POrog (with_fact o (a * x + b * y))) s = Ok (FMat F) /\ call T (POrog (with_fact o x)) s = Ok (FMat X)
  /\ call T (POrog (with_fact o y)) s = Ok (FMat Y) /\ F = madd (mscale a X) (mscale b Y).
Proof.
  intros K T g H o s h a b x y E HH HO.
  destruct (orog_call_get T g H (with_fact o (a * x + b * y)) s h E HH HO) as [F [E1 [S1 V1]]].
  destruct (orog_call_get T g H (with_fact o x) s h E HH HO) as [X [E2 [S2 V2]]].
  destruct (orog_call_get T g H (with_fact o y) s h E HH HO) as [Y [E3 [S3 V3]]].
  exists F, X, Y. do 3 (split; [assumption|]). apply (mat_ext (g_nlat g) (g_nlon g)); auto using shaped_madd, shaped_mscale.
  intros i j Hi Hj. rewrite (mget_madd (g_nlat g) (g_nlon g)), !(mget_mscale (g_nlat g) (g_nlon g)) by auto using shaped_mscale.
  rewrite V1, V2, V3 by auto. unfold forcing_f, forcing_u, forcing_v, with_fact.
  cbn [o_relief o_scale_height o_wind o_fact o_fcor_ref]. destruct (o_wind o); field; auto; split; auto; apply not_0_INR; lia.
Qed.
Print Assumptions C43_linear_in_wind.
Theorem C43_flat : forall K T g, exact_on T g -> forall o (s : state K) h c, s_grid s = g -> o_scale_height o <> 0 ->
  orography (o_relief o) g = Ok h -> (forall i j, (i < g_nlat g)%nat -> (j < g_nlon g)%nat -> mget h i j = c) ->
  call T (POrog o) s = Ok (FMat (mat_of (g_nlat g) (g_nlon g) (fun _ _ => 0))).
Proof.
  intros K T g H o s h c E HH HO Hc. destruct (orog_call_get T g H o s h E HH HO) as [F [E1 [S1 V1]]].
  cbn [call]. rewrite E1. do 2 f_equal. apply (mat_ext (g_nlat g) (g_nlon g)); auto using shaped_mat_of.
  intros i j Hi Hj. rewrite V1 by auto. rewrite (flat_relief g c h _ HO Hc), (flat_gradient T g H).
  cbn [fst snd]. rewrite !mget_mat_of by auto. ring.
Qed.
Print Assumptions C43_flat.
Theorem C43_solid_body_state_free : forall K T o (s s' : state K), o_wind o = WSbr -> s_grid s = s_grid s' ->
  call T (POrog o) s = call T (POrog o) s'.
Proof. intros K T o s s' HW E. cbn [call]. unfold orog_call, orog_value, get_wind. now rewrite HW, E. Qed.
Print Assumptions C43_solid_body_state_free.
Theorem C43_zonal_wind : forall K T g, exact_on T g -> forall o (s s' : state K), o_wind o = WZon -> o_scale_height o <> 0 ->
  s_grid s = g -> s_grid s' = g ->
  (forall i, (i < g_nlat g)%nat -> Rsum (tab (g_nlon g) (fun j => mget (s_u T s) i j)) = Rsum (tab (g_nlon g) (fun j => mget (s_u T s') i j))) ->
  call T (POrog o) s = call T (POrog o) s'.
Proof.
  intros K T g H o s s' HW HH E E' HU. cbn [call]. destruct (orography (o_relief o) g) as [h|e] eqn:EO.
  2:{ unfold orog_call, orography_gradient. rewrite E, E', EO. reflexivity. }
  destruct (orog_call_get T g H o s h E HH EO) as [F [-> [S1 V1]]]. destruct (orog_call_get T g H o s' h E' HH EO) as [F' [-> [S2 V2]]].
  do 2 f_equal. apply (mat_ext (g_nlat g) (g_nlon g)); auto. intros i j Hi Hj. rewrite V1, V2 by auto.
  unfold forcing_u, forcing_v. rewrite HW. now rewrite HU.
Qed.
Print Assumptions C43_zonal_wind.
Theorem C43_wind_kinds : forall r H kind fact f,
  (In kind ["act"; "zon"; "sbr"]%string -> exists o, mk_orog r H (kind, fact) f = Ok o
     /\ o_relief o = r /\ o_scale_height o = H /\ o_fact o = fact /\ o_fcor_ref o = f
     /\ (kind = "act"%string -> o_wind o = WAct) /\ (kind = "zon"%string -> o_wind o = WZon) /\ (kind = "sbr"%string -> o_wind o = WSbr))
  /\ (~ In kind ["act"; "zon"; "sbr"]%string -> mk_orog r H (kind, fact) f = Err ValueError).
Proof.
  intros r H kind fact f. split.
  - intros [<-|[<-|[<-|[]]]]; cbn; eexists; (split; [reflexivity|]); cbn; repeat split; discriminate.
  - intros HN. rewrite mk_orog_wind.
    destruct (String.eqb_spec kind "act"); [subst; exfalso; apply HN; cbn; auto|].
    destruct (String.eqb_spec kind "zon"); [subst; exfalso; apply HN; cbn; auto|].
    destruct (String.eqb_spec kind "sbr"); [subst; exfalso; apply HN; cbn; auto|]. reflexivity.
Qed.
Print Assumptions C43_wind_kinds.
Definition example_orog : orog := mkOrog (RSine 1500 45 10 1) 10000 WAct (1/2) None.
Example C43_nonvacuous : exact_on d1_family (d1_grid 1 1) /\ s_grid example_s = d1_grid 1 1 /\ o_scale_height example_orog <> 0
  /\ (exists h, orography (o_relief example_orog) (d1_grid 1 1) = Ok h)
  /\ exists h, orography (RSine 0 45 10 1) (d1_grid 1 1) = Ok h /\ forall i j, (i < 3)%nat -> (j < 4)%nat -> mget h i j = 0.
Proof.
  split; [apply d1_exact; lra|]. split; [reflexivity|]. split; [cbn; lra|]. split; [cbn [example_orog o_relief orography]; eauto|].
  eexists. split; [reflexivity|]. intros i j Hi Hj.
  destruct (sine_mountain_get (d1_grid 1 1) 0 45 10 1 _ eq_refl) as [_ V]. rewrite V by auto. ring.
Qed.

(** C44 *)
Theorem C44_cache_unobservable : forall K T (objects : nat -> orog) (history : list (nat * state K)),
  fst (evaluate T objects history []) = map (fun p => orog_call T (objects (fst p)) (snd p)) history
  /\ (length (snd (evaluate T objects history [])) <= 8)%nat.
Proof.
  intros K T objects history. destruct (cached_history T objects history []) as [A [_ C]]; [constructor|cbn; lia|]. auto.
Qed.
Print Assumptions C44_cache_unobservable.
(** two grids with the same shape but different resolution share an entry *)
Example C44_nonvacuous : exists g, mk_grid 85 1 1 (Some 1%Z) = Ok g /\ g_res g <> g_res (d1_grid 1 1)
  /\ length (snd (evaluate d1_family (fun _ => example_orog) [(0%nat, example_s); (0%nat, mkState (K := numR) g (@VNum numR 0) nil)] [])) = 1%nat
  /\ length (snd (evaluate d1_family (fun _ => example_orog) (map (fun i => (i, example_s)) (seq 0 10)) [])) = 8%nat.
Proof.
  exists (mkGrid 85 1 1 4 3 1). split.
  { unfold mk_grid, nlon_of, nlat_of. destruct (Req_EM_T 85 0); [lra|]. rewrite !py_int_nonneg by lra.
    rewrite (Int_part_unique (360 / 85) 4), (Int_part_unique (180 / 85) 2) by lra. cbn.
    replace (Rltb 0 1) with true by (symmetry; apply Rltb_true; lra). reflexivity. }
  split; [cbn; lra|]. split.
  - cbn [evaluate]. unfold cached_call, cached_gradient. cbn [cache_take]. unfold orography_gradient.
    cbn [example_orog o_relief orography bind snd s_grid example_s]. cbn [firstn maxsize cache_take fst].
    replace (key_eqb (0%nat, d1_grid 1 1) (0%nat, mkGrid 85 1 1 4 3 1)) with true; [reflexivity|].
    symmetry. unfold key_eqb, hash_eqb, grid_eqb. cbn [fst snd d1_grid g_nlat g_nlon g_rsphere g_omega g_ntrunc]. cbn [Nat.eqb andb].
    rewrite isclose_refl. replace (Reqb 1 1) with true by (symmetry; apply Reqb_true; reflexivity). reflexivity.
  - rewrite (fresh_entries d1_family (fun _ => example_orog) example_s); [reflexivity| |intros e []|cbn; lia].
    intros i. unfold orography_gradient. cbn [example_orog o_relief orography bind]. eauto.
Qed.

(** C45 *)
Theorem C45_gaussian : forall g height clon clat slon slat, 0 < height -> slon <> 0 -> slat <> 0 ->
  exists m, orography (RGauss height clon clat slon slat) g = Ok m /\ shaped (g_nlat g) (g_nlon g) m
  /\ (forall i j, (i < g_nlat g)%nat -> (j < g_nlon g)%nat -> 0 < mget m i j <= height)
  /\ (forall i j, (i < g_nlat g)%nat -> (j < g_nlon g)%nat -> nth i (g_lat g) 0 = clat -> nth j (g_lon g) 0 = clon -> mget m i j = height).
Proof.
  intros g height clon clat slon slat Hh H1 H2. eexists. split; [reflexivity|].
  destruct (gauss_mountain_get g height clon clat slon slat _ eq_refl) as [S V]. split; [exact S|]. split.
  - intros i j Hi Hj. rewrite V by auto. set (a := gauss _ clon slon). set (b := gauss _ clat slat).
    assert (A : 0 < a <= 1) by (split; [apply gauss_pos|now apply gauss_le1]). assert (B : 0 < b <= 1) by (split; [apply gauss_pos|now apply gauss_le1]).
    split; [apply Rmult_lt_0_compat; [apply Rmult_lt_0_compat|]; lra|]. rewrite Rmult_assoc. assert (a * b <= 1) by nra. nra.
  - intros i j Hi Hj E1 E2. rewrite V by auto. rewrite E1, E2, !gauss_centre. ring.
Qed.
Print Assumptions C45_gaussian.
Theorem C45_distance_partial : forall g height clon clat slon slat m i j d, orography (RGauss height clon clat slon slat) g = Ok m ->
  (i < g_nlat g)%nat -> (j < g_nlon g)%nat -> angular_distance (nth j (g_lon g) 0) clon d -> Rabs (nth j (g_lon g) 0 - clon) <= 180 ->
  mget m i j = height * exp (- (1/2) * d ^ 2 / slon ^ 2) * exp (- (1/2) * (nth i (g_lat g) 0 - clat) ^ 2 / slat ^ 2).
Proof.
  intros g height clon clat slon slat m i j d E Hi Hj HD HB. destruct (gauss_mountain_get g height clon clat slon slat _ E) as [_ V].
  rewrite V by auto. unfold gauss. now rewrite (angular_small _ _ _ HD HB).
Qed.
Print Assumptions C45_distance_partial.
(** centre on the Greenwich meridian: 90E and 270E are equally far away but differ in height *)
Theorem C45_periodic_refuted : exists g m, mk_grid 90 1 1 (Some 1%Z) = Ok g /\ orography (RGauss 1500 0 0 10 10) g = Ok m
  /\ angular_distance (nth 1 (g_lon g) 0) 0 90 /\ angular_distance (nth 3 (g_lon g) 0) 0 90 /\ mget m 1 3 < mget m 1 1.
Proof.
  exists (d1_grid 1 1). eexists. split; [apply d1_grid_ok; lra|]. split; [reflexivity|].
  assert (E1 : nth 1 (g_lon (d1_grid 1 1)) 0 = 90) by (rewrite lon_nth by (cbn; lia); cbn; lra).
  assert (E3 : nth 3 (g_lon (d1_grid 1 1)) 0 = 270) by (rewrite lon_nth by (cbn; lia); cbn; lra).
  rewrite E1, E3. split; [split; [lra|exists 0%Z; left; lra]|]. split; [split; [lra|exists 1%Z; right; lra]|].
  destruct (gauss_mountain_get (d1_grid 1 1) 1500 0 0 10 10 _ eq_refl) as [_ V]. rewrite !V by (cbn; lia). rewrite E1, E3.
  pose proof (gauss_pos (nth 1 (g_lat (d1_grid 1 1)) 0) 0 10). set (b := gauss _ 0 10) in *.
  assert (gauss 270 0 10 < gauss 90 0 10) by (unfold gauss; apply exp_increasing; lra). nra.
Qed.
Print Assumptions C45_periodic_refuted.
Example C45_nonvacuous : nth 1 (g_lat (d1_grid 1 1)) 0 = 0 /\ nth 1 (g_lon (d1_grid 1 1)) 0 = 90 /\ angular_distance 90 45 45 /\ Rabs (90 - 45) <= 180.
Proof.
  split; [rewrite lat_nth by (cbn; lia); cbn; lra|]. split; [rewrite lon_nth by (cbn; lia); cbn; lra|].
  split; [split; [lra|exists 0%Z; left; lra]|]. rewrite Rabs_right; lra.
Qed.

(** C46 *)
Theorem C46_sine_mountains : forall g height clat slat k, 0 <= height -> slat <> 0 -> 
  exists m (H : R -> R -> R), orography (RSine height clat slat k) g = Ok m /\ shaped (g_nlat g) (g_nlon g) m
  /\ (forall i j, (i < g_nlat g)%nat -> (j < g_nlon g)%nat -> mget m i j = H (nth j (g_lon g) 0) (nth i (g_lat g) 0))
  /\ (forall lon lat, 0 <= H lon lat <= height)
  /\ (forall lon, k * lon = 0 -> H lon clat = height)
  /\ (forall lat lon, continuous (fun x => H x lat) lon)
  /\ (k <> 0 -> forall lon lat, H (lon + 360 / k) lat = H lon lat)
  /\ (forall n : Z, k = IZR n -> forall lon lat, H (lon + 360) lat = H lon lat).
Proof.
  intros g height clat slat k Hh Hs. eexists. exists (fun lon lat => height * (1/2 * (1 + cos (k * deg2rad lon))) * gauss lat clat slat).
  split; [reflexivity|]. destruct (sine_mountain_get g height clat slat k _ eq_refl) as [S V]. split; [exact S|]. split; [exact V|]. split.
  - intros lon lat. pose proof (COS_bound (k * deg2rad lon)) as C. set (c := cos _) in *.
    assert (B : 0 < gauss lat clat slat <= 1) by (split; [apply gauss_pos|now apply gauss_le1]). set (b := gauss lat clat slat) in *.
    assert (0 <= 1/2 * (1 + c) <= 1) by lra. set (w := 1/2 * (1 + c)) in *. rewrite Rmult_assoc. assert (0 <= w * b <= 1) by nra. split; nra.
  - split.
    + intros lon E. rewrite gauss_centre. replace (k * deg2rad lon) with ((k * lon) * (PI / 180)) by (unfold deg2rad; field). rewrite E, Rmult_0_l, cos_0. field.
    + split; [|split].
      * intros lat lon. apply (ex_derive_continuous (fun x => height * (1/2 * (1 + cos (k * deg2rad x))) * gauss lat clat slat)). unfold deg2rad. auto_derive. exact I.
      * intros Hk lon lat. f_equal. f_equal. f_equal. f_equal. replace (k * deg2rad (lon + 360 / k)) with (k * deg2rad lon + 2 * PI) by (unfold deg2rad; field; exact Hk).
        apply cos_2PI_add || (rewrite cos_plus, cos_2PI, sin_2PI; ring).
      * intros n -> lon lat. f_equal. f_equal. f_equal. f_equal. replace (IZR n * deg2rad (lon + 360)) with (IZR n * deg2rad lon + 2 * IZR n * PI) by (unfold deg2rad; field).
        apply cos_period_Z.
Qed.
Print Assumptions C46_sine_mountains.
Example C46_nonvacuous : 0 <= 1500 /\ 10 <> 0 /\ 4 <> 0 /\ 4 = IZR 4.
Proof. repeat split; lra. Qed.
