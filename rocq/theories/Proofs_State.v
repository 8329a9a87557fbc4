(** State constructors, operators and accessors. *)
From Coq Require Export String.
From Verif Require Import Base Model_Grid Model_Time Model_Spectral Model_State Spec_Grid Spec_Spectral Spec_State Spec_Instance.
From Verif Require Import Proofs_Base Proofs_Grid Proofs_Spectral Proofs_Instance.
From Coquelicot Require Import Coquelicot.
From Coq Require Import List Lia Lra.
Open Scope R_scope.

Lemma mscale_1 f : mscale 1 f = f.
Proof.
  unfold mscale, vscale. rewrite (map_ext _ (fun r => r)); [apply map_id|]. intros r.
  rewrite (map_ext _ (fun x => x)); [apply map_id|]. intros x. ring.
Qed.
Lemma sscale_1 x : sscale 1 x = x.
Proof. unfold sscale. rewrite (map_ext _ (fun c => c)); [apply map_id|]. intros c. ring. Qed.
Lemma RtoC_m1 : RtoC (-1) = (- RtoC 1)%C.
Proof. unfold RtoC, Copp. cbn. f_equal; ring. Qed.
Lemma msub_lin nr nc f h : shaped nr nc f -> shaped nr nc h -> msub f h = madd (mscale 1 f) (mscale (-1) h).
Proof.
  intros Hf Hh. unfold msub, madd, vadd, vsub. apply (mat_ext nr nc).
  - now apply shaped_map2.
  - apply shaped_map2; now apply shaped_mscale.
  - intros i j Hi Hj. rewrite !(mget_map2 nr nc) by (auto using shaped_mscale).
    rewrite !(mget_mscale nr nc) by auto. ring.
Qed.
Lemma madd_lin f h : madd f h = madd (mscale 1 f) (mscale 1 h).
Proof. now rewrite !mscale_1. Qed.
Lemma sadd_lin x y : sadd x y = sadd (sscale 1 x) (sscale 1 y).
Proof. now rewrite !sscale_1. Qed.
Lemma ssub_lin x y : length x = length y -> ssub x y = sadd (sscale 1 x) (sscale (-1) y).
Proof.
  intros H. apply spec_ext; [rewrite ssub_length, sadd_length by (rewrite ?sscale_length; auto); now rewrite sscale_length|].
  rewrite ssub_length by auto. intros k Hk. rewrite coef_ssub by auto. rewrite coef_sadd by (rewrite ?sscale_length; auto).
  rewrite !coef_sscale by lia. rewrite RtoC_m1. ring.
Qed.
Lemma shaped_madd nr nc f h : shaped nr nc f -> shaped nr nc h -> shaped nr nc (madd f h).
Proof. apply shaped_map2. Qed.
Lemma shaped_msub nr nc f h : shaped nr nc f -> shaped nr nc h -> shaped nr nc (msub f h).
Proof. apply shaped_map2. Qed.
Lemma shaped_mmul nr nc f h : shaped nr nc f -> shaped nr nc h -> shaped nr nc (mmul f h).
Proof. apply shaped_map2. Qed.
Lemma mget_madd nr nc f h i j : shaped nr nc f -> shaped nr nc h -> (i < nr)%nat -> (j < nc)%nat ->
  mget (madd f h) i j = mget f i j + mget h i j.
Proof. apply mget_map2. Qed.
Lemma mget_msub nr nc f h i j : shaped nr nc f -> shaped nr nc h -> (i < nr)%nat -> (j < nc)%nat ->
  mget (msub f h) i j = mget f i j - mget h i j.
Proof. apply mget_map2. Qed.
Lemma mget_mmul nr nc f h i j : shaped nr nc f -> shaped nr nc h -> (i < nr)%nat -> (j < nc)%nat ->
  mget (mmul f h) i j = mget f i j * mget h i j.
Proof. apply mget_map2. Qed.
Lemma madd_msub nr nc f h : shaped nr nc f -> shaped nr nc h -> madd h (msub f h) = f.
Proof.
  intros Hf Hh. apply (mat_ext nr nc); auto using shaped_madd, shaped_msub.
  intros i j Hi Hj. rewrite (mget_madd nr nc) by auto using shaped_msub. rewrite (mget_msub nr nc) by auto. ring.
Qed.
Lemma fcor2_shaped g : shaped (g_nlat g) (g_nlon g) (g_fcor2 g).
Proof.
  unfold g_fcor2. apply shaped_mmap. unfold g_lat2. split.
  - rewrite map_length. unfold g_lat, linspace_end. apply tab_length.
  - apply Forall_forall. intros r Hr. apply in_map_iff in Hr. destruct Hr as [y [<- _]].
    rewrite map_length. unfold g_lon, linspace_noend. apply tab_length.
Qed.

Section Exact.
Context (T : sphfam) (g : grid).
Hypothesis H : exact_on T g.
Notation nr := (g_nlat g).
Notation nc := (g_nlon g).
Notation nt := (g_ntrunc g).
Notation N := (nspec (g_ntrunc g)).
Notation A := (to_spectral T g).
Notation B := (to_grid T g).
Notation gshaped := (shaped nr nc).

Lemma A_len f : length (A f) = N. Proof. apply (et_len _ _ _ _ H). Qed.
Lemma B_shape x : gshaped (B x). Proof. apply (et_shape _ _ _ _ H). Qed.
Lemma A_add f h : gshaped f -> gshaped h -> A (madd f h) = sadd (A f) (A h).
Proof.
  intros Hf Hh. rewrite madd_lin. unfold to_spectral at 1. rewrite (et_analysis_linear _ _ _ _ H) by auto.
  now rewrite !sscale_1.
Qed.
Lemma A_sub f h : gshaped f -> gshaped h -> A (msub f h) = ssub (A f) (A h).
Proof.
  intros Hf Hh. rewrite (msub_lin nr nc) by auto. unfold to_spectral at 1. rewrite (et_analysis_linear _ _ _ _ H) by auto.
  symmetry. apply (ssub_lin (A f) (A h)). now rewrite !A_len.
Qed.
Lemma B_add x y : length x = N -> length y = N -> B (sadd x y) = madd (B x) (B y).
Proof.
  intros Hx Hy. rewrite sadd_lin. unfold to_grid at 1. rewrite (et_synthesis_linear _ _ _ _ H) by auto.
  now rewrite !mscale_1.
Qed.
Lemma B_sub x y : length x = N -> length y = N -> B (ssub x y) = msub (B x) (B y).
Proof.
  intros Hx Hy. rewrite ssub_lin by lia. unfold to_grid at 1. rewrite (et_synthesis_linear _ _ _ _ H) by auto.
  symmetry. apply (msub_lin nr nc); apply B_shape.
Qed.
Lemma resolved_lin a b x y : length x = N -> length y = N -> A (B x) = x -> A (B y) = y ->
  A (B (sadd (sscale a x) (sscale b y))) = sadd (sscale a x) (sscale b y).
Proof.
  intros Hx Hy Rx Ry. unfold to_grid at 1. rewrite (et_synthesis_linear _ _ _ _ H) by auto.
  change (sh_spectogrd (sph T g)) with B. unfold to_spectral at 1.
  rewrite (et_analysis_linear _ _ _ _ H) by apply B_shape. change (sh_grdtospec (sph T g) (B x) nt) with (A (B x)).
  change (sh_grdtospec (sph T g) (B y) nt) with (A (B y)). now rewrite Rx, Ry.
Qed.
Lemma A_resolved f : gshaped f -> A (B (A f)) = A f.
Proof. intros Hf. apply (et_projection _ _ _ _ H f Hf). Qed.
Lemma resolved_sub x y : length x = N -> length y = N -> A (B x) = x -> A (B y) = y -> A (B (ssub x y)) = ssub x y.
Proof. intros Hx Hy Rx Ry. rewrite ssub_lin by lia. now apply resolved_lin. Qed.
Lemma resolved_add x y : length x = N -> length y = N -> A (B x) = x -> A (B y) = y -> A (B (sadd x y)) = sadd x y.
Proof. intros Hx Hy Rx Ry. rewrite sadd_lin. now apply resolved_lin. Qed.

(** mean part and mean-free part of a spectral array *)
Definition mpart (c : R) : spec := RtoC c :: repeat (RtoC 0) (N - 1).
Lemma mpart_len c : length (mpart c) = N.
Proof. unfold mpart. cbn [length]. rewrite repeat_length. pose proof (nspec_pos nt). lia. Qed.
Lemma mpart_coef c k : coef (mpart c) k = if Nat.eqb k 0 then RtoC c else RtoC 0.
Proof. destruct k; [reflexivity|]. unfold mpart, coef. cbn [nth Nat.eqb]. apply nth_repeat. Qed.
Definition zeros : spec := repeat (RtoC 0) N.
Lemma zeros_len : length zeros = N. Proof. apply repeat_length. Qed.
Lemma zeros_like x : length x = N -> szeros_like x = zeros.
Proof. intros E. rewrite szeros_repeat. now rewrite E. Qed.

Lemma resolved_real x : length x = N -> A (B x) = x -> Im (coef x 0) = 0.
Proof. intros Hx Rx. rewrite <- Rx. apply (et_mean_real _ _ _ _ H). Qed.

(** wind of a resolved vorticity *)
Definition W (z : spec) : mat * mat := sh_getuv (sph T g) z zeros.
Lemma zeros_lin a b : sadd (sscale a zeros) (sscale b zeros) = zeros.
Proof.
  apply spec_ext; [rewrite sadd_length; rewrite ?sscale_length; auto|].
  rewrite sadd_length by (rewrite ?sscale_length; auto). rewrite sscale_length. intros k Hk.
  rewrite coef_sadd by (rewrite ?sscale_length; auto). rewrite !coef_sscale by auto. unfold zeros. rewrite coef_zero. ring.
Qed.
Lemma W_lin a b x y : length x = N -> length y = N ->
  fst (W (sadd (sscale a x) (sscale b y))) = madd (mscale a (fst (W x))) (mscale b (fst (W y)))
  /\ snd (W (sadd (sscale a x) (sscale b y))) = madd (mscale a (snd (W x))) (mscale b (snd (W y))).
Proof.
  intros Hx Hy. pose proof (et_wind_linear _ _ _ _ H a b x zeros y zeros Hx zeros_len Hy zeros_len) as E.
  cbn zeta in E. rewrite zeros_lin in E. exact E.
Qed.
Lemma W_shape x : gshaped (fst (W x)) /\ gshaped (snd (W x)).
Proof. apply (et_wind_shape _ _ _ _ H). Qed.
Lemma W_const c : W (mpart c) = (mat_of nr nc (fun _ _ => 0), mat_of nr nc (fun _ _ => 0)).
Proof. apply (et_constant_wind _ _ _ _ H). Qed.

(** mean-free part *)
Definition mfree (x : spec) : spec := sadd (sscale 1 x) (sscale (-1) (mpart (Re (coef x 0)))).
Lemma mfree_len x : length x = N -> length (mfree x) = N.
Proof. intros Hx. unfold mfree. rewrite sadd_length; rewrite ?sscale_length, ?mpart_len; auto. Qed.
Lemma mfree_coef x k : length x = N -> (k < N)%nat ->
  coef (mfree x) k = (coef x k - (if Nat.eqb k 0 then RtoC (Re (coef x 0)) else RtoC 0))%C.
Proof.
  intros Hx Hk. unfold mfree. rewrite coef_sadd by (rewrite ?sscale_length, ?mpart_len; auto; lia).
  rewrite !coef_sscale by (rewrite ?mpart_len; lia). rewrite mpart_coef. rewrite RtoC_m1. ring.
Qed.
Lemma mfree_resolved x : length x = N -> A (B x) = x -> A (B (mfree x)) = mfree x.
Proof.
  intros Hx Rx. apply resolved_lin; auto using mpart_len. apply (et_constant _ _ _ _ H).
Qed.
Lemma mfree_0 x : length x = N -> A (B x) = x -> coef (mfree x) 0 = RtoC 0.
Proof.
  intros Hx Rx. rewrite mfree_coef by (auto; apply nspec_pos). cbn [Nat.eqb].
  pose proof (resolved_real x Hx Rx) as E. destruct (coef x 0) as [a b]. cbn in E |- *. subst b.
  unfold Cminus, Cplus, Copp, RtoC. cbn. f_equal; ring.
Qed.
Lemma mfree_id x : length x = N -> coef x 0 = RtoC 0 -> mfree x = x.
Proof.
  intros Hx E0. apply spec_ext; [rewrite mfree_len; auto|]. rewrite mfree_len by auto. intros k Hk.
  rewrite mfree_coef by auto. destruct (Nat.eqb_spec k 0) as [->|]; [rewrite E0; cbn|]; ring.
Qed.
Lemma madd_zero f h : gshaped f -> h = mat_of nr nc (fun _ _ => 0) -> madd (mscale 1 f) (mscale (-1) h) = f.
Proof.
  intros Hf ->. apply (mat_ext nr nc); auto.
  - apply shaped_madd; apply shaped_mscale; auto. apply shaped_mat_of.
  - intros i j Hi Hj. rewrite (mget_madd nr nc) by (auto using shaped_mscale, shaped_mat_of).
    rewrite !(mget_mscale nr nc) by (auto using shaped_mat_of). rewrite mget_mat_of by auto. ring.
Qed.
Lemma W_mfree x : length x = N -> W (mfree x) = W x.
Proof.
  intros Hx. destruct (W_lin 1 (-1) x (mpart (Re (coef x 0))) Hx (mpart_len _)) as [E1 E2].
  rewrite W_const in E1, E2. unfold mfree. destruct (W (sadd _ _)) as [u v]. destruct (W x) as [u0 v0] eqn:EW.
  pose proof (W_shape x) as [S1 S2]. rewrite EW in S1, S2. cbn [fst snd] in *. rewrite E1, E2.
  now rewrite !madd_zero.
Qed.
Lemma V_len u v : length (vorticity_spectral T g u v) = N.
Proof. apply (et_vrtdiv_len _ _ _ _ H). Qed.
(** vorticity of the wind = mean-free part *)
Lemma vort_wind z : length z = N -> A (B z) = z ->
  vorticity_spectral T g (fst (W z)) (snd (W z)) = mfree z.
Proof.
  intros Hz Rz. rewrite <- (W_mfree z Hz).
  pose proof (et_inversion _ _ _ _ H (mfree z) (mfree_len z Hz) (mfree_resolved z Hz Rz) (mfree_0 z Hz Rz)) as E.
  cbn zeta in E. unfold vorticity_spectral, vorticity_divergence_spectral, W. unfold zeros. now rewrite E.
Qed.
Lemma vort_add u v u' v' : gshaped u -> gshaped v -> gshaped u' -> gshaped v' ->
  vorticity_spectral T g (madd u u') (madd v v') = sadd (vorticity_spectral T g u v) (vorticity_spectral T g u' v').
Proof.
  intros H1 H2 H3 H4. rewrite (madd_lin u), (madd_lin v).
  destruct (et_vrtdiv_linear _ _ _ _ H 1 1 u v u' v' H1 H2 H3 H4) as [E _].
  unfold vorticity_spectral, vorticity_divergence_spectral. rewrite E. now rewrite !sscale_1.
Qed.

(** states *)
Context {K : numtype}.
Notation on_grid := (@on_grid K T g).
Notation F2 := (fcor2_spectral T g).
Lemma F2_len : length F2 = N. Proof. apply A_len. Qed.
Lemma F2_res : A (B F2) = F2. Proof. apply A_resolved, fcor2_shaped. Qed.

Lemma pv_shape s : on_grid s -> gshaped (s_pv T s).
Proof. intros [E _]. unfold s_pv. rewrite E. apply B_shape. Qed.
Lemma vort_len s : on_grid s -> length (s_vorticity_spectral T s) = N.
Proof. intros [E [L _]]. unfold s_vorticity_spectral. rewrite E. rewrite ssub_length; rewrite ?F2_len; auto. Qed.
Lemma vort_res s : on_grid s -> A (B (s_vorticity_spectral T s)) = s_vorticity_spectral T s.
Proof.
  intros [E [L R]]. unfold s_vorticity_spectral. rewrite E. apply resolved_sub; auto using F2_len, F2_res.
Qed.
Lemma uv_W s : on_grid s -> s_invert_pv T s = W (s_vorticity_spectral T s).
Proof.
  intros HS. pose proof (vort_len s HS) as L. destruct HS as [E _]. unfold s_invert_pv, wind, as_spectral, W.
  now rewrite zeros_like, E.
Qed.

Lemma from_pv s (time : pyval K) : on_grid s -> state_init T g time (Some (s_pv T s)) None = Ok (mkState g time (s_pvs s)).
Proof.
  intros [E [L R]]. unfold state_init, s_pv. rewrite E. f_equal. f_equal. exact R.
Qed.
Lemma from_vort s (time : pyval K) : on_grid s -> state_from_vorticity T g time (s_vorticity T s) = Ok (mkState g time (s_pvs s)).
Proof.
  intros HS. unfold state_from_vorticity, s_vorticity. pose proof HS as [E _]. rewrite E.
  rewrite (madd_msub nr nc) by (auto using pv_shape, fcor2_shaped). now apply from_pv.
Qed.
Lemma from_wind_eq s (time : pyval K) : on_grid s ->
  state_from_wind T g time (s_u T s) (s_v T s) = Ok (mkState g time (sadd F2 (mfree (s_vorticity_spectral T s)))).
Proof.
  intros HS. unfold state_from_wind, state_init, s_u, s_v. rewrite (uv_W s HS). do 2 f_equal. unfold vorticity.
  rewrite A_add by (auto using fcor2_shaped, B_shape). unfold fcor2_spectral. f_equal.
  rewrite vort_wind by (auto using vort_len, vort_res).
  apply mfree_resolved; auto using vort_len, vort_res.
Qed.
Lemma F2_vort s : on_grid s -> sadd F2 (s_vorticity_spectral T s) = s_pvs s.
Proof.
  intros HS. pose proof (vort_len s HS) as L1. destruct HS as [E [L R]]. pose proof F2_len.
  apply spec_ext; [rewrite sadd_length; lia|]. rewrite sadd_length by lia. intros k Hk.
  rewrite coef_sadd by lia. unfold s_vorticity_spectral. rewrite E. rewrite coef_ssub by lia. ring.
Qed.
Lemma from_wind s (time : pyval K) : on_grid s -> coef (s_vorticity_spectral T s) 0 = RtoC 0 ->
  state_from_wind T g time (s_u T s) (s_v T s) = Ok (mkState g time (s_pvs s)).
Proof.
  intros HS E0. rewrite (from_wind_eq s time HS). do 2 f_equal.
  rewrite mfree_id by (auto using vort_len). now apply F2_vort.
Qed.
Lemma from_wind_mean s (time : pyval K) s' : on_grid s -> coef (s_vorticity_spectral T s) 0 <> RtoC 0 ->
  state_from_wind T g time (s_u T s) (s_v T s) = Ok s' -> s_pvs s' <> s_pvs s.
Proof.
  intros HS E0 E. rewrite (from_wind_eq s time HS) in E. apply Ok_inj in E. subst s'. cbn [s_pvs].
  intros EQ. apply E0. pose proof (nspec_pos nt). pose proof (vort_len s HS) as L.
  assert (Q : coef (sadd F2 (mfree (s_vorticity_spectral T s))) 0 = coef (s_pvs s) 0) by now rewrite EQ.
  rewrite <- (F2_vort s HS) in Q. rewrite !coef_sadd in Q by (rewrite ?mfree_len, ?F2_len, ?L; auto).
  rewrite mfree_0 in Q by (auto using vort_res).
  replace (coef (s_vorticity_spectral T s) 0) with (coef F2 0 + coef (s_vorticity_spectral T s) 0 - coef F2 0)%C by ring.
  rewrite <- Q. ring.
Qed.
Lemma vort_spectral s : on_grid s -> A (s_vorticity T s) = s_vorticity_spectral T s.
Proof.
  intros HS. pose proof HS as [E [L R]]. unfold s_vorticity. rewrite E.
  rewrite A_sub by (auto using pv_shape, fcor2_shaped). unfold s_vorticity_spectral. rewrite E. f_equal.
  unfold s_pv. rewrite E. exact R.
Qed.
Lemma gridded_on_grid f (time : pyval K) s : gshaped f -> state_init T g time (Some f) None = Ok s -> on_grid s.
Proof.
  intros Hf E. apply Ok_inj in E. subst s. split; [reflexivity|]. split; [apply A_len|]. now apply A_resolved.
Qed.

(** C26 *)
Lemma add_vorticity_field s f : on_grid s -> gshaped f ->
  exists s', add_vorticity T s (VoField f) = Ok s' /\ on_grid s' /\ s_time s' = s_time s
    /\ s_vorticity_spectral T s' = sadd (s_vorticity_spectral T s) (A f)
    /\ (B (A f) = f -> s_vorticity T s' = madd (s_vorticity T s) f).
Proof.
  intros HS Hf. pose proof HS as [E [L R]]. unfold add_vorticity. rewrite E.
  rewrite (proj2 (shapedb_spec nr nc f)) by auto. cbn [passert]. eexists. split; [reflexivity|]. cbn [s_time].
  assert (HA : A (madd (s_pv T s) f) = sadd (s_pvs s) (A f)).
  { rewrite A_add by (auto using pv_shape). f_equal. unfold s_pv. rewrite E. exact R. }
  split; [|split; [reflexivity|split]].
  - split; [reflexivity|]. split; [apply A_len|]. apply A_resolved. apply shaped_madd; auto using pv_shape.
  - unfold s_vorticity_spectral. cbn [s_pvs s_grid]. rewrite E, HA. pose proof F2_len. pose proof (A_len f).
    assert (L1 : length (sadd (s_pvs s) (A f)) = N) by (rewrite sadd_length; lia).
    assert (L2 : length (ssub (s_pvs s) F2) = N) by (rewrite ssub_length; lia).
    apply spec_ext.
    { rewrite (ssub_length (sadd (s_pvs s) (A f))) by congruence. rewrite (sadd_length (ssub (s_pvs s) F2)) by congruence. congruence. }
    rewrite ssub_length by congruence. intros k Hk. rewrite L1 in Hk.
    rewrite coef_ssub by congruence. rewrite (coef_sadd (s_pvs s)) by congruence.
    rewrite (coef_sadd (ssub (s_pvs s) F2)) by congruence. rewrite coef_ssub by congruence. ring.
  - intros RB. rewrite HA. unfold s_vorticity, s_pv. cbn [s_pvs s_grid]. rewrite E.
    rewrite B_add by (auto using A_len). rewrite RB.
    pose proof (B_shape (s_pvs s)). pose proof (fcor2_shaped g).
    apply (mat_ext nr nc); [apply shaped_msub; auto using shaped_madd|apply shaped_madd; auto using shaped_msub|].
    intros i j Hi Hj. rewrite (mget_msub nr nc) by (auto using shaped_madd). rewrite !(mget_madd nr nc) by (auto using shaped_msub).
    rewrite (mget_msub nr nc) by auto. ring.
Qed.

Lemma add_vorticity_state s o : on_grid s -> on_grid o ->
  exists s', add_vorticity T s (VoState o true) = Ok s' /\ on_grid s' /\ s_time s' = s_time s
    /\ s_vorticity_spectral T s' = sadd (s_vorticity_spectral T s) (s_vorticity_spectral T o)
    /\ (B F2 = g_fcor2 g -> s_vorticity T s' = madd (s_vorticity T s) (s_vorticity T o)).
Proof.
  intros HS HO. pose proof HO as [EO _].
  assert (Hf : gshaped (s_vorticity T o)).
  { unfold s_vorticity. rewrite EO. apply shaped_msub; auto using pv_shape, fcor2_shaped. }
  destruct (add_vorticity_field s _ HS Hf) as [s' [E1 [E2 [E3 [E4 E5]]]]].
  pose proof HS as [ES _].
  assert (EE : add_vorticity T s (VoState o true) = Ok s').
  { rewrite <- E1. unfold add_vorticity. rewrite ES. rewrite (proj2 (shapedb_spec nr nc _)) by auto. reflexivity. }
  exists s'. split; [exact EE|]. split; [exact E2|]. split; [exact E3|]. rewrite E4. rewrite (vort_spectral o HO).
  split; [reflexivity|]. intros RB. apply E5. rewrite (vort_spectral o HO). unfold s_vorticity_spectral, s_vorticity.
  rewrite EO. rewrite B_sub by (auto using F2_len; apply HO). rewrite RB. unfold s_pv. now rewrite EO.
Qed.

Lemma add_wind_state s o : on_grid s -> on_grid o ->
  exists s', add_wind T s (WState o true) = Ok s' /\ on_grid s' /\ s_time s' = s_time s
    /\ s_u T s' = madd (s_u T s) (s_u T o) /\ s_v T s' = madd (s_v T s) (s_v T o).
Proof.
  intros HS HO. pose proof HS as [ES _]. pose proof HO as [EO _]. unfold add_wind. cbn [passert]. rewrite ES.
  unfold state_from_wind, state_init. eexists. split; [reflexivity|]. cbn [s_time].
  set (zs := s_vorticity_spectral T s). set (zo := s_vorticity_spectral T o).
  assert (Lz : length zs = N) by apply (vort_len s HS). assert (Lo : length zo = N) by apply (vort_len o HO).
  assert (Rz : A (B zs) = zs) by apply (vort_res s HS). assert (Ro : A (B zo) = zo) by apply (vort_res o HO).
  assert (Us : s_invert_pv T s = W zs) by apply (uv_W s HS). assert (Uo : s_invert_pv T o = W zo) by apply (uv_W o HO).
  unfold s_u, s_v. rewrite Us, Uo.
  pose proof (W_shape zs) as [S1 S2]. pose proof (W_shape zo) as [S3 S4].
  set (z' := sadd (mfree zs) (mfree zo)).
  assert (Lz' : length z' = N) by (unfold z'; rewrite sadd_length; rewrite ?mfree_len; auto).
  assert (Rz' : A (B z') = z').
  { unfold z'. apply resolved_add; auto using mfree_len, mfree_resolved. }
  assert (EV : vorticity T g (madd (fst (W zs)) (fst (W zo))) (madd (snd (W zs)) (snd (W zo))) = B z').
  { unfold vorticity. rewrite vort_add by auto. rewrite !vort_wind by auto. reflexivity. }
  rewrite EV. set (st := mkState g (s_time s) (A (madd (g_fcor2 g) (B z')))).
  assert (EA : A (madd (g_fcor2 g) (B z')) = sadd F2 z').
  { rewrite A_add by (auto using fcor2_shaped, B_shape). now rewrite Rz'. }
  assert (HST : on_grid st).
  { split; [reflexivity|]. split; [apply A_len|]. apply A_resolved. apply shaped_madd; auto using fcor2_shaped, B_shape. }
  assert (EZ : s_vorticity_spectral T st = z').
  { unfold s_vorticity_spectral, st. cbn [s_pvs s_grid]. rewrite EA. pose proof F2_len.
    assert (length (sadd F2 z') = N) by (rewrite sadd_length; lia).
    apply spec_ext; [rewrite ssub_length; lia|]. rewrite ssub_length by lia. intros k Hk.
    rewrite coef_ssub by lia. rewrite coef_sadd by lia. ring. }
  split; [exact HST|]. split; [reflexivity|]. rewrite (uv_W st HST), EZ. unfold z'. rewrite sadd_lin.
  destruct (W_lin 1 1 (mfree zs) (mfree zo)) as [E1 E2]; auto using mfree_len.
  rewrite E1, E2, !W_mfree by auto. now rewrite !mscale_1.
Qed.
End Exact.

(** tuples: the wind of self does not enter *)
Lemma add_wind_tuple {K} T (s : state K) u v :
  shaped (g_nlat (s_grid s)) (g_nlon (s_grid s)) u -> shaped (g_nlat (s_grid s)) (g_nlon (s_grid s)) v ->
  add_wind T s (WTuple u v) = state_from_wind T (s_grid s) (s_time s) u v.
Proof.
  intros Hu Hv. unfold add_wind. rewrite (proj2 (shapedb_spec _ _ u)) by auto.
  now rewrite (proj2 (shapedb_spec _ _ v)) by auto.
Qed.

Lemma vortdiv_refuted T g u v : vorticity_divergence T g u v = Err NameError.
Proof. reflexivity. Qed.

Lemma add_wind_tuple_refuted : exists g (s s' : state numR) z, exact_on d1_family g /\ on_grid d1_family g s
  /\ shaped (g_nlat g) (g_nlon g) z
  /\ add_wind d1_family s (WTuple z z) = Ok s' /\ s_u d1_family s' <> madd (s_u d1_family s) z.
Proof.
  set (g := d1_grid 1 0). set (s := mkState (K := numR) g (@VNum numR 0) [RtoC 0; RtoC 1; RtoC 0]).
  assert (HE : exact_on d1_family g) by (apply d1_exact; lra).
  assert (HS : on_grid d1_family g s).
  { split; [reflexivity|]. split; [reflexivity|]. unfold resolved. cbn [sph d1_family sh_grdtospec sh_spectogrd s s_pvs].
    unfold d1_analysis, row_mean, row_cos, row_sin, d1_synthesis. rewrite !mget_mat_of by lia.
    unfold coef, d1_sphi, d1_clam, d1_slam, d1_cphi. cbn [nth Re Im RtoC fst snd].
    list3; apply pair_eqC; cbn; try field; reflexivity. }
  set (z := mat_of 3 4 (fun _ _ => 0)).
  assert (HZ : shaped 3 4 z) by apply shaped_mat_of.
  set (s' := mkState (K := numR) g (@VNum numR 0) (to_spectral d1_family g (madd (g_fcor2 g) (vorticity d1_family g z z)))).
  exists g, s, s', z. split; [exact HE|]. split; [exact HS|]. split; [exact HZ|]. split; [apply add_wind_tuple; exact HZ|].
  assert (HV : vorticity_spectral d1_family g z z = repeat (RtoC 0) 3).
  { unfold vorticity_spectral, vorticity_divergence_spectral. cbn [sph d1_family sh_getvrtdivspec g_rsphere g_nlat g_nlon g d1_grid fst d1_getvrtdiv].
    unfold row_mean, row_cos, row_sin, z. rewrite !mget_mat_of by lia. cbn [repeat].
    list3; unfold RtoC; apply pair_eqC; try reflexivity; field. }
  assert (HU : mget (s_u d1_family s') 1 0 = 0).
  { unfold s_u. assert (HS' : on_grid d1_family g s').
    { apply (gridded_on_grid _ _ HE (madd (g_fcor2 g) (vorticity d1_family g z z)) (@VNum numR 0)); [|reflexivity].
      apply shaped_madd; [apply fcor2_shaped|apply (B_shape _ _ HE)]. }
    rewrite (uv_W _ _ HE s' HS').
    assert (EZ : s_vorticity_spectral d1_family s' = repeat (RtoC 0) 3).
    { unfold s_vorticity_spectral, s'. cbn [s_pvs s_grid]. unfold vorticity.
      rewrite (A_add _ _ HE) by (apply fcor2_shaped || apply (B_shape _ _ HE)).
      rewrite HV. change (to_spectral d1_family g (g_fcor2 g)) with (fcor2_spectral d1_family g).
      assert (Q : to_spectral d1_family g (to_grid d1_family g (repeat (RtoC 0) 3)) = repeat (RtoC 0) 3).
      { pose proof (et_constant _ _ _ _ HE 0) as Q. exact Q. }
      rewrite Q. pose proof (F2_len _ _ HE) as LF.
      apply spec_ext; [rewrite ssub_length, sadd_length; rewrite ?LF; reflexivity|].
      rewrite ssub_length, sadd_length by (rewrite ?sadd_length; rewrite ?LF; reflexivity). intros k Hk.
      rewrite coef_ssub by (rewrite ?sadd_length; rewrite ?LF; try reflexivity; rewrite LF in Hk; exact Hk).
      rewrite coef_sadd by (rewrite ?LF; try reflexivity; rewrite LF in Hk; exact Hk). rewrite coef_zero. ring. }
    rewrite EZ. change (repeat (RtoC 0) 3) with (mpart g 0). rewrite (W_const _ _ HE). cbn [fst].
    apply (mget_mat_of 3 4); lia. }
  intros EQ. rewrite EQ in HU. rewrite (mget_madd 3 4) in HU; try lia; [|apply (et_wind_shape _ _ _ _ HE)|exact HZ].
  unfold z in HU. rewrite mget_mat_of in HU by lia. revert HU.
  assert (EZ : s_vorticity_spectral d1_family s = [RtoC 0; RtoC 1; RtoC 0]).
  { unfold s_vorticity_spectral. cbn [s s_pvs s_grid]. unfold fcor2_spectral, to_spectral.
    cbn [sph d1_family sh_grdtospec]. unfold d1_analysis, row_mean, row_cos, row_sin.
    assert (E0 : forall i j, mget (g_fcor2 g) i j = 0).
    { intros i j. unfold mget, g_fcor2, mmap.
      assert (QF : forall m, (forall r, In r m -> forall x, In x r -> x = 0) -> nth j (nth i m []) 0 = 0).
      { intros m Hm. destruct (Nat.lt_ge_cases i (length m)) as [L|L].
        - destruct (Nat.lt_ge_cases j (length (nth i m []))) as [L'|L'].
          + apply (Hm (nth i m [])); now apply nth_In.
          + now apply nth_overflow.
        - rewrite (nth_overflow m) by auto. now destruct j. }
      apply QF. intros r Hr x Hx. apply in_map_iff in Hr. destruct Hr as [r' [<- _]].
      apply in_map_iff in Hx. destruct Hx as [y [<- _]]. unfold coriolis, g, d1_grid. cbn [g_omega]. ring. }
    rewrite !E0. unfold ssub. cbn [map2]. list3; unfold Cminus, Cplus, Copp, RtoC; cbn; apply pair_eqC; field. }
  unfold s_u. rewrite (uv_W _ _ HE s HS), EZ. unfold W, sph, d1_family. cbn [sh_getuv]. unfold d1_getuv. cbn [fst].
  rewrite (mget_mat_of 3 4) by lia. unfold g, d1_grid, zeros. cbn [g_rsphere]. rewrite coef_zero.
  unfold coef, d1_sphi, d1_clam, d1_slam, d1_cphi. cbn [nth Re Im RtoC fst snd]. lra.
Qed.

(** C28 *)
Lemma hn2016_roundtrip {K} T earth g (s : state K) (time : pyval K) : exact_on T g -> on_grid T g s ->
  from_hn2016 T earth (Some g) time (as_hn2016 T s) = Ok (mkState g time (s_pvs s))
  /\ length (bf_ylat (as_hn2016 T s)) = g_nlat g
  /\ (forall i, (i < g_nlat g)%nat -> nth i (bf_ylat (as_hn2016 T s)) 0 = nth (g_nlat g - 1 - i) (g_lat g) 0)
  /\ (forall i, (i < g_nlat g)%nat -> nth i (bf_pv (as_hn2016 T s)) [] = nth (g_nlat g - 1 - i) (s_pv T s) []).
Proof.
  intros HE HS. pose proof HS as [E _]. unfold as_hn2016. rewrite E. cbn [bf_ylat bf_pv].
  assert (LL : length (g_lat g) = g_nlat g) by apply tab_length.
  assert (LP : length (s_pv T s) = g_nlat g) by apply (pv_shape _ _ HE s HS).
  split; [|split; [now rewrite rev_length|split]].
  - unfold from_hn2016, bind. cbn [bf_xlon bf_ylat bf_pv]. rewrite rev_length, LL, Nat.eqb_refl.
    replace (length (g_lon g)) with (g_nlon g) by (symmetry; apply tab_length). rewrite Nat.eqb_refl. cbn [passert].
    rewrite rev_involutive. now apply from_pv.
  - intros i Hi. rewrite rev_nth by lia. f_equal. lia.
  - intros i Hi. rewrite rev_nth by lia. f_equal. lia.
Qed.

(** C29 *)
Lemma enstrophy_nonneg pv : Forall (Forall (fun x => 0 <= x)) (enstrophy_of pv)
  /\ Forall (Forall (fun x => 0 <= x)) (eddy_enstrophy_of pv).
Proof.
  assert (Q : forall m, Forall (Forall (fun x => 0 <= x)) (mmap (fun q => 1 / 2 * q ^ 2) m)).
  { intros m. unfold mmap. apply Forall_forall. intros r Hr. apply in_map_iff in Hr. destruct Hr as [r' [<- _]].
    apply Forall_forall. intros x Hx. apply in_map_iff in Hx. destruct Hx as [y [<- _]].
    pose proof (pow2_ge_0 y). lra. }
  split; apply Q.
Qed.
Lemma energy_nonneg nr nc u v : shaped nr nc u -> shaped nr nc v ->
  shaped nr nc (energy_of u v) /\ forall i j, (i < nr)%nat -> (j < nc)%nat -> 0 <= mget (energy_of u v) i j.
Proof.
  intros Hu Hv. unfold energy_of. split; [apply shaped_mscale, shaped_madd; now apply shaped_mmul|].
  intros i j Hi Hj. rewrite (mget_mscale nr nc) by (auto; apply shaped_madd; now apply shaped_mmul).
  rewrite (mget_madd nr nc) by (auto using shaped_mmul). rewrite !(mget_mmul nr nc) by auto. nra.
Qed.
Lemma enstrophy_value nr nc pv i j : shaped nr nc pv -> (i < nr)%nat -> (j < nc)%nat ->
  mget (enstrophy_of pv) i j = mget pv i j ^ 2 / 2
  /\ mget (eddy_enstrophy_of pv) i j = (mget pv i j - vmean (nth i pv [])) ^ 2 / 2.
Proof.
  intros H Hi Hj. unfold enstrophy_of, eddy_enstrophy_of. rewrite (mget_mmap nr nc) by auto. split; [field|].
  assert (E : mget (zonal_anomaly pv) i j = mget pv i j - vmean (nth i pv [])).
  { unfold mget, zonal_anomaly. rewrite (nth_map_lt _ _ _ []) by (destruct H; lia).
    rewrite (nth_map_lt _ _ _ 0); [reflexivity|]. rewrite (shaped_row nr nc) by auto. exact Hj. }
  rewrite (mget_mmap nr nc); [rewrite E; field| |auto|auto].
  destruct H as [H1 H2]. unfold zonal_anomaly. split; [now rewrite map_length|].
  apply Forall_map. eapply Forall_impl; [|exact H2]. intros r Hr. now rewrite map_length.
Qed.
Lemma energy_value nr nc u v i j : shaped nr nc u -> shaped nr nc v -> (i < nr)%nat -> (j < nc)%nat ->
  mget (energy_of u v) i j = (mget u i j ^ 2 + mget v i j ^ 2) / 2.
Proof.
  intros Hu Hv Hi Hj. unfold energy_of. rewrite (mget_mscale nr nc) by (auto; apply shaped_madd; now apply shaped_mmul).
  rewrite (mget_madd nr nc) by (auto using shaped_mmul). rewrite !(mget_mmul nr nc) by auto. field.
Qed.
Lemma Rsum_const_len l (c : R) : (forall x, In x l -> x = c) -> Rsum l = INR (length l) * c.
Proof.
  induction l as [|x l IH]; intros Hc; [cbn; ring|]. change (Rsum (x :: l)) with (x + Rsum l).
  rewrite IH by (intros; apply Hc; now right). rewrite (Hc x) by now left. cbn [length]. rewrite S_INR. ring.
Qed.
Lemma eddy_zero_iff pv : Forall (Forall (fun x => x = 0)) (eddy_enstrophy_of pv)
  <-> Forall (fun row => forall x y, In x row -> In y row -> x = y) pv.
Proof.
  unfold eddy_enstrophy_of, zonal_anomaly, mmap. rewrite map_map, Forall_map. rewrite !Forall_forall.
  assert (Q : forall row : vec, Forall (fun x => x = 0) (map (fun q => 1 / 2 * q ^ 2) (map (fun x => x - vmean row) row))
     <-> (forall x y, In x row -> In y row -> x = y)).
  { intros row. rewrite map_map, Forall_map, Forall_forall. split.
    - intros Hz x y Hx Hy. pose proof (Hz x Hx) as Ex. pose proof (Hz y Hy) as Ey. cbv beta in Ex, Ey.
      assert (x - vmean row = 0) by (apply Rsqr_0_uniq; unfold Rsqr; nra).
      assert (y - vmean row = 0) by (apply Rsqr_0_uniq; unfold Rsqr; nra). lra.
    - intros Hc x Hx. assert (EM : vmean row = x).
      { unfold vmean. rewrite (Rsum_const_len row x) by (intros; now apply Hc). field.
        apply not_0_INR. destruct row; [destruct Hx|discriminate]. }
      rewrite EM. ring. }
  split; intros Hz row Hr; apply Q; now apply Hz.
Qed.
Lemma sum_sq_anomaly m row : Rsum (map (fun x => 1 / 2 * (x - m) ^ 2) row)
     = Rsum (map (fun q => 1 / 2 * q ^ 2) row) - m * Rsum row + 1 / 2 * INR (length row) * m ^ 2.
Proof.
  induction row as [|x row IH]; [cbn; ring|].
  cbn [map length]. rewrite S_INR.
  repeat match goal with |- context [Rsum (?a :: ?l)] => change (Rsum (a :: l)) with (a + Rsum l) end.
  rewrite IH. field.
Qed.
Lemma enstrophy_decomposition pv i : (i < length pv)%nat -> nth i pv [] <> [] ->
  vmean (nth i (enstrophy_of pv) []) = 1 / 2 * vmean (nth i pv []) ^ 2 + vmean (nth i (eddy_enstrophy_of pv) []).
Proof.
  intros Hi Hne. unfold enstrophy_of, eddy_enstrophy_of, zonal_anomaly, mmap. rewrite map_map.
  rewrite !(nth_map_lt _ _ _ []) by auto. set (row := nth i pv []) in *. rewrite map_map.
  set (m := vmean row). unfold vmean at 1 2. rewrite !map_length.
  set (n := INR (length row)).
  assert (Hn : n <> 0) by (apply not_0_INR; destruct row; [congruence|discriminate]).
  assert (Em : Rsum row = n * m) by (unfold m, vmean, n in *; field; auto).
  pose proof (sum_sq_anomaly m row) as Q. fold n in Q.
  rewrite Q, Em. field. exact Hn.
Qed.
