(** Proofs about relaxation and orographic forcing (C41-C46). *)
From Coq Require Export String.
From Verif Require Import Base Model_Grid Model_Time Model_Spectral Model_State Model_Run Model_RHS.
From Verif Require Import Spec_Grid Spec_Spectral Spec_State Spec_Instance Spec_Run Spec_RHS.
From Verif Require Import Proofs_Base Proofs_Grid Proofs_Spectral Proofs_Instance Proofs_State Proofs_Run Proofs_Step Proofs_RHS.
From Coquelicot Require Import Coquelicot.
From Coq Require Import List Lia Lra.
Open Scope R_scope.

(** ** C41 *)
Section Relax.
Context {K : numtype} (T : sphfam) (g : grid).
Hypothesis H : exact_on T g.
Notation nr := (g_nlat g).
Notation nc := (g_nlon g).
Notation N := (nspec (g_ntrunc g)).

Lemma relax_value (s : state K) rate ref : s_grid s = g -> shaped nr nc ref ->
  exists F, relax_call T rate (FMat ref) s = Ok (FMat F) /\ F = mscale rate (msub ref (s_pv T s)) /\ shaped nr nc F
  /\ forall i j, (i < nr)%nat -> (j < nc)%nat -> mget F i j = rate * (mget ref i j - mget (s_pv T s) i j).
Proof.
  intros E HR. assert (HS : shaped nr nc (s_pv T s)) by (unfold s_pv; rewrite E; apply (B_shape T g H)).
  unfold relax_call. cbn [fbin]. rewrite (same_shape_true nr nc) by auto. cbn [bind fbin]. eexists. split; [reflexivity|].
  split; [reflexivity|]. change (shaped nr nc (mscale rate (msub ref (s_pv T s))) /\ forall i j, (i < nr)%nat -> (j < nc)%nat -> mget (mscale rate (msub ref (s_pv T s))) i j = rate * (mget ref i j - mget (s_pv T s) i j)).
  split; [now apply shaped_mscale, shaped_msub|]. intros i j Hi Hj.
  rewrite (mget_mscale nr nc) by (auto using shaped_msub). now rewrite (mget_msub nr nc) by auto.
Qed.
Lemma relax_spectral (s : state K) rate ref : on_grid T g s -> shaped nr nc ref ->
  to_spectral T g (mscale rate (msub ref (s_pv T s))) = sscale rate (ssub (to_spectral T g ref) (s_pvs s)).
Proof.
  intros [E [L R]] HR. assert (HS : shaped nr nc (s_pv T s)) by (unfold s_pv; rewrite E; apply (B_shape T g H)).
  replace (mscale rate (msub ref (s_pv T s))) with (madd (mscale rate ref) (mscale (- rate) (s_pv T s))).
  2:{ apply (mat_ext nr nc); [auto using shaped_madd, shaped_mscale|auto using shaped_mscale, shaped_msub|].
      intros i j Hi Hj. rewrite (mget_madd nr nc) by auto using shaped_mscale. rewrite !(mget_mscale nr nc) by auto using shaped_msub.
      rewrite (mget_msub nr nc) by auto. ring. }
  unfold to_spectral. rewrite (et_analysis_linear _ _ _ _ H) by auto. fold (to_spectral T g ref) (to_spectral T g (s_pv T s)).
  assert (EP : to_spectral T g (s_pv T s) = s_pvs s) by (unfold s_pv; rewrite E; exact R). rewrite EP.
  pose proof (A_len T g H ref) as LR.
  apply spec_ext; rewrite sadd_length; rewrite ?sscale_length, ?ssub_length; try congruence.
  intros k Hk. rewrite coef_sadd, !coef_sscale, coef_ssub; rewrite ?sscale_length, ?ssub_length; try congruence || lia.
  rewrite RtoC_opp. ring.
Qed.
Lemma relax_euler res rs om nt : mk_grid res rs om nt = Ok g ->
  forall (M : bmodel K) (s new : state K) rate ref dt h, on_grid T g s -> shaped nr nc ref ->
  m_rhs M = Some (call T (PRelax rate (FMat ref))) -> m_coeff M = 0 -> m_bg M = None ->
  to_seconds dt = Ok h -> euler T M s dt = Ok new ->
  length (s_pvs new) = N
  /\ (forall k, (k < N)%nat ->
    (coef (s_pvs new) k - coef (to_spectral T g ref) k
     = RtoC (1 - rate * h) * (coef (s_pvs s) k - coef (to_spectral T g ref) k) - RtoC h * coef (s_pv_flux_spectral T s) k)%C)
  /\ (coef (s_pvs new) 0 - coef (to_spectral T g ref) 0 = RtoC (1 - rate * h) * (coef (s_pvs s) 0 - coef (to_spectral T g ref) 0))%C.
Proof.
  intros Hg M s new rate ref dt h HS HR HM HC HB Hh HE. pose proof HS as [E [L Rs]].
  destruct (euler_coef _ _ _ _ _ Hg K T M s new dt E HB HE) as [h' [x [Hh' [Hx [_ [_ Q]]]]]].
  assert (h' = h) by congruence. subst h'. pose proof (flux_length T g H s E) as LF. pose proof (A_len T g H ref) as LR.
  destruct (relax_value s rate ref E HR) as [F [EF [FF _]]].
  unfold pv_tendency_spectral in Hx. rewrite HM in Hx. cbn [call] in Hx. rewrite EF in Hx. cbn [bind] in Hx. apply Ok_inj in Hx.
  rewrite E, FF, relax_spectral in Hx by auto.
  assert (Lx : length x = N).
  { subst x. rewrite sadd_length; rewrite sopp_length; [exact LF|]. rewrite sscale_length, ssub_length; congruence. }
  destruct Q as [LN Q]; [rewrite HC; lra|exact L|exact Lx|]. split; [exact LN|].
  assert (QQ : forall k, (k < N)%nat ->
    (coef (s_pvs new) k - coef (to_spectral T g ref) k
     = RtoC (1 - rate * h) * (coef (s_pvs s) k - coef (to_spectral T g ref) k) - RtoC h * coef (s_pv_flux_spectral T s) k)%C).
  { intros k Hk. specialize (Q k Hk). rewrite HC in Q. rewrite Rmult_0_r, Rmult_0_l, Rplus_0_r in Q. rewrite Cmult_1_l in Q.
    rewrite Q. subst x. rewrite coef_sadd, coef_sopp, coef_sscale, coef_ssub; rewrite ?sopp_length, ?sscale_length, ?ssub_length; try congruence || lia.
    cring. }
  split; [exact QQ|]. rewrite QQ by apply nspec_pos. rewrite (flux_mean T g H s E). cring.
Qed.
End Relax.

(** ** C42 *)
Lemma decreasing_opp v : strictly_decreasing v -> strictly_increasing (map Ropp v).
Proof.
  intros HD i j Hij Hj. rewrite map_length in Hj. specialize (HD i j Hij Hj).
  rewrite !(nth_map_lt Ropp v _ 0) by lia. lra.
Qed.
Lemma interp_orography_value lon lat h g m : interp_orography lon lat h g = Ok m ->
  (0 < length lat)%nat /\ (0 < length lon)%nat /\ shaped (length lat) (length lon) h /\ shaped (g_nlat g) (g_nlon g) m
  /\ forall i j, (i < g_nlat g)%nat -> (j < g_nlon g)%nat ->
     mget m i j = np_interp (nth j (g_lon g) 0) lon
       (tab (length lon) (fun b => np_interp (- nth i (g_lat g) 0) (map Ropp lat) (mcol h b))).
Proof.
  unfold interp_orography. destruct (Nat.eqb_spec (length lat) 0) as [E1|E1]; [discriminate|].
  destruct (Nat.eqb_spec (length lon) 0) as [E2|E2]; [discriminate|]. cbn [orb].
  destruct (shapedb (length lat) (length lon) h) eqn:ES; [|discriminate]. cbn [negb]. apply shapedb_spec in ES.
  intros E. apply Ok_inj in E. subst m. split; [lia|]. split; [lia|]. split; [exact ES|]. split.
  - split; [now rewrite !map_length, lat_length|]. apply Forall_forall. intros r Hr. apply in_map_iff in Hr. destruct Hr as [r' [<- _]].
    now rewrite map_length, lon_length.
  - intros i j Hi Hj. unfold mget. rewrite (nth_map_lt _ _ i nil) by (rewrite map_length, lat_length; exact Hi).
    rewrite (nth_map_lt _ _ j 0) by (rewrite lon_length; exact Hj). rewrite (nth_map_lt _ _ i 0) by (rewrite lat_length; exact Hi). reflexivity.
Qed.
Lemma interp_orography_ok lon lat h g : (0 < length lat)%nat -> (0 < length lon)%nat -> shaped (length lat) (length lon) h ->
  exists m, interp_orography lon lat h g = Ok m.
Proof.
  intros H1 H2 H3. unfold interp_orography. apply shapedb_spec in H3. rewrite H3.
  destruct (Nat.eqb_spec (length lat) 0); [lia|]. destruct (Nat.eqb_spec (length lon) 0); [lia|]. cbn. eauto.
Qed.
Lemma orography_nodes lon lat h g m i j a b : strictly_increasing lon -> strictly_decreasing lat -> interp_orography lon lat h g = Ok m ->
  (i < g_nlat g)%nat -> (j < g_nlon g)%nat -> (a < length lat)%nat -> (b < length lon)%nat ->
  nth i (g_lat g) 0 = nth a lat 0 -> nth j (g_lon g) 0 = nth b lon 0 -> mget m i j = mget h a b.
Proof.
  intros H1 H2 HO Hi Hj Ha Hb Ei Ej. destruct (interp_orography_value _ _ _ _ _ HO) as [L1 [L2 [SH [_ V]]]].
  rewrite V by auto. rewrite Ej. rewrite interp_node by auto. rewrite tab_nth by exact Hb. rewrite Ei.
  rewrite <- (nth_map_lt Ropp lat a 0 0) by exact Ha. rewrite interp_node; rewrite ?map_length; auto using decreasing_opp.
  destruct SH as [SL _]. rewrite mcol_nth by congruence. reflexivity.
Qed.
Lemma lon_increasing g : (0 < g_nlon g)%nat -> strictly_increasing (g_lon g).
Proof.
  intros Hn i j Hij Hj. rewrite lon_length in Hj. rewrite !lon_nth by lia. apply Rmult_lt_compat_r; [|now apply lt_INR].
  apply Rdiv_lt_0_compat; [lra|]. apply lt_0_INR. lia.
Qed.
Lemma lat_decreasing g : strictly_decreasing (g_lat g).
Proof.
  intros i j Hij Hj. rewrite lat_length in Hj. rewrite !lat_nth by lia.
  pose proof (lt_INR _ _ Hij) as HI. assert (Hp : 0 < 180 / INR (g_nlat g - 1)) by (apply Rdiv_lt_0_compat; [lra|apply lt_0_INR; lia]). pose proof (Rmult_lt_compat_r _ _ _ Hp HI) as Q. unfold Rdiv in *. lra.
Qed.
Lemma orography_same_grid h g m : interp_orography (g_lon g) (g_lat g) h g = Ok m -> m = h.
Proof.
  intros HO. destruct (interp_orography_value _ _ _ _ _ HO) as [L1 [L2 [SH [SM V]]]]. rewrite lat_length, lon_length in SH.
  rewrite lon_length in L2. apply (mat_ext (g_nlat g) (g_nlon g)); auto. intros i j Hi Hj.
  apply (orography_nodes (g_lon g) (g_lat g) h g m i j i j); rewrite ?lat_length, ?lon_length; auto using lon_increasing, lat_decreasing.
Qed.
Lemma orography_bounds lon lat h g m lo hi : strictly_increasing lon -> strictly_decreasing lat -> interp_orography lon lat h g = Ok m ->
  Forall (Forall (fun x => lo <= x <= hi)) h ->
  forall i j, (i < g_nlat g)%nat -> (j < g_nlon g)%nat -> lo <= mget m i j <= hi.
Proof.
  intros H1 H2 HO HB i j Hi Hj. destruct (interp_orography_value _ _ _ _ _ HO) as [L1 [L2 [SH [_ V]]]]. rewrite V by auto.
  apply interp_bounds; auto. intros b Hb. rewrite tab_nth by exact Hb.
  apply interp_bounds; rewrite ?map_length; auto using decreasing_opp. intros a Ha.
  rewrite mcol_nth by (destruct SH; congruence). unfold mget. rewrite Forall_forall in HB. destruct SH as [SL SF].
  assert (Q : In (nth a h nil) h) by (apply nth_In; congruence). specialize (HB _ Q). rewrite Forall_forall in HB. apply HB.
  apply nth_In. rewrite Forall_forall in SF. rewrite (SF _ Q). exact Hb.
Qed.

(** ** C43 *)
Section Forcing.
Context {K : numtype} (T : sphfam) (g : grid).
Hypothesis H : exact_on T g.
Notation nr := (g_nlat g).
Notation nc := (g_nlon g).

Lemma lon2_shaped : shaped nr nc (g_lon2 g).
Proof. split; [unfold g_lon2; now rewrite map_length, lat_length|]. apply Forall_forall. intros r Hr. apply in_map_iff in Hr. destruct Hr as [y [<- _]]. apply lon_length. Qed.
Lemma lam2_shaped : shaped nr nc (g_lam2 g).
Proof. split; [unfold g_lam2, g_phi; now rewrite !map_length, lat_length|]. apply Forall_forall. intros r Hr. apply in_map_iff in Hr. destruct Hr as [y [<- _]]. unfold g_lam. now rewrite map_length, lon_length. Qed.
Lemma lon2_get i j : (i < nr)%nat -> mget (g_lon2 g) i j = nth j (g_lon g) 0.
Proof. intros Hi. unfold mget, g_lon2. now rewrite (nth_map_lt _ _ i 0) by (rewrite lat_length; exact Hi). Qed.
Lemma lam2_get i j : (i < nr)%nat -> mget (g_lam2 g) i j = nth j (g_lam g) 0.
Proof. intros Hi. unfold mget, g_lam2. now rewrite (nth_map_lt _ _ i 0) by (unfold g_phi; rewrite map_length, lat_length; exact Hi). Qed.
Lemma lat2_get i j : (i < nr)%nat -> (j < nc)%nat -> mget (g_lat2 g) i j = nth i (g_lat g) 0.
Proof. intros Hi Hj. unfold mget, g_lat2. rewrite (nth_map_lt _ _ i 0) by (rewrite lat_length; exact Hi). now rewrite (nth_map_lt _ _ j 0) by (rewrite lon_length; exact Hj). Qed.
Lemma orography_shaped r m : orography r g = Ok m -> shaped nr nc m.
Proof.
  destruct r; cbn [orography]; intros E.
  - now destruct (interp_orography_value _ _ _ _ _ E) as [_ [_ [_ [S _]]]].
  - apply Ok_inj in E. subst m. apply shaped_map2; [apply lon2_shaped|apply lat2_shaped].
  - apply Ok_inj in E. subst m. apply shaped_map2; [apply lam2_shaped|apply lat2_shaped].
Qed.

(** factors *)
Definition bget (b : bfield) (i j : nat) : R := match b with BMat m => mget m i j | BCol c => nth i c 0 | BNum x => x end.
Definition bfits (b : bfield) : Prop := match b with BMat m => shaped nr nc m | BCol c => length c = nr | BNum _ => True end.
Lemma bmul_shaped b f : bfits b -> shaped nr nc f -> shaped nr nc (bmul b f).
Proof.
  destruct b; cbn [bfits bmul]; intros Hb Hf; auto using shaped_mmul, shaped_mscale.
  destruct Hf as [L F]. split; [rewrite map2_length; lia|]. apply Forall_forall. intros r Hr.
  assert (Q : exists x y, In y f /\ r = vscale x y).
  { clear -Hr. revert f Hr. induction c as [|a c IH]; intros [|y f] Hr; cbn in Hr; try easy.
    destruct Hr as [<-|Hr]; [exists a, y; split; [now left|reflexivity]|]. destruct (IH f Hr) as [x [z [Hz ->]]]. exists x, z. split; [now right|reflexivity]. }
  destruct Q as [x [y [Hy ->]]]. unfold vscale. rewrite map_length. rewrite Forall_forall in F. now apply F.
Qed.
Lemma bmul_get b f i j : bfits b -> shaped nr nc f -> (i < nr)%nat -> (j < nc)%nat -> mget (bmul b f) i j = bget b i j * mget f i j.
Proof.
  destruct b; cbn [bfits bmul bget]; intros Hb Hf Hi Hj.
  - now apply (mget_mmul nr nc).
  - unfold mget. destruct Hf as [L F]. rewrite (map2_nth vscale c f i 0 nil nil) by (rewrite ?L; lia). unfold vscale.
    rewrite (nth_map_lt _ _ j 0); [reflexivity|]. rewrite Forall_forall in F. rewrite (F (nth i f nil)); [exact Hj|]. apply nth_In. lia.
  - now apply (mget_mscale nr nc).
Qed.

Notation wind_u := (forcing_u T g).
Notation wind_v := (forcing_v T).
Notation cor := (forcing_f g).

Lemma uv_shaped (s : state K) : s_grid s = g -> shaped nr nc (s_u T s) /\ shaped nr nc (s_v T s).
Proof. intros E. unfold s_u, s_v, s_invert_pv, wind. rewrite E. apply (et_wind_shape _ _ _ _ H). Qed.
Lemma get_wind_fits o (s : state K) : s_grid s = g -> bfits (fst (get_wind T o s)) /\ bfits (snd (get_wind T o s)).
Proof.
  intros E. destruct (uv_shaped s E) as [Su Sv]. unfold get_wind. destruct (o_wind o); cbn [fst snd bfits]; auto using shaped_mscale.
  - rewrite map_length. split; [apply Su|exact I].
  - rewrite map_length, E. unfold g_phi. rewrite map_length, lat_length. auto.
Qed.
Lemma get_wind_get o (s : state K) i j : s_grid s = g -> (i < nr)%nat -> (j < nc)%nat ->
  bget (fst (get_wind T o s)) i j = wind_u o s i j /\ bget (snd (get_wind T o s)) i j = wind_v o s i j.
Proof.
  intros E Hi Hj. destruct (uv_shaped s E) as [Su Sv]. unfold get_wind, forcing_u, forcing_v. destruct (o_wind o); cbn [fst snd bget].
  - now rewrite !(mget_mscale nr nc) by auto.
  - split; [|reflexivity]. destruct Su as [L F]. rewrite (nth_map_lt _ _ i nil) by lia. f_equal.
    assert (LR : length (nth i (s_u T s) nil) = nc). { rewrite Forall_forall in F. apply F, nth_In. lia. }
    unfold vmean, mget. rewrite LR. f_equal. rewrite (nth_ext_tab (nth i (s_u T s) nil) 0) at 1. now rewrite LR.
  - split; [|reflexivity]. rewrite E. rewrite (nth_map_lt _ _ i 0) by (unfold g_phi; rewrite map_length, lat_length; exact Hi).
    now rewrite phi_nth by exact Hi.
Qed.
Lemma orog_value_get o (s : state K) gx gy : s_grid s = g -> o_scale_height o <> 0 -> shaped nr nc gx -> shaped nr nc gy ->
  shaped nr nc (orog_value T o s (gx, gy))
  /\ forall i j, (i < nr)%nat -> (j < nc)%nat -> mget (orog_value T o s (gx, gy)) i j
     = - cor o i / o_scale_height o * (wind_u o s i j * mget gx i j + wind_v o s i j * mget gy i j).
Proof.
  intros E HH Sx Sy. destruct (get_wind_fits o s E) as [Fu Fv]. unfold orog_value.
  pose proof (fun i j => get_wind_get o s i j E) as W. destruct (get_wind T o s) as [u v]. cbn [fst snd] in *.
  set (fc := match o_fcor_ref o with None => _ | Some f => _ end).
  assert (FF : bfits fc). { unfold fc. destruct (o_fcor_ref o); cbn [bfits]; [exact I|]. rewrite E. apply shaped_mscale, fcor2_shaped. }
  assert (SI : shaped nr nc (madd (bmul u gx) (bmul v gy))) by auto using shaped_madd, bmul_shaped.
  split; [now apply bmul_shaped|]. intros i j Hi Hj. rewrite bmul_get by auto. rewrite (mget_madd nr nc) by auto using bmul_shaped.
  rewrite !bmul_get by auto. destruct (W i j Hi Hj) as [-> ->].
  f_equal. unfold fc, forcing_f. destruct (o_fcor_ref o); cbn [bget]; [reflexivity|].
  rewrite E, (mget_mscale nr nc) by (auto using fcor2_shaped). rewrite fcor2_grid by auto. unfold coriolis; field. exact HH.
Qed.
Lemma orog_call_get o (s : state K) hh : s_grid s = g -> o_scale_height o <> 0 -> orography (o_relief o) g = Ok hh ->
  exists F, orog_call T o s = Ok (FMat F) /\ shaped nr nc F
  /\ forall i j, (i < nr)%nat -> (j < nc)%nat -> mget F i j
     = - cor o i / o_scale_height o
       * (wind_u o s i j * mget (fst (gradient T g hh)) i j + wind_v o s i j * mget (snd (gradient T g hh)) i j).
Proof.
  intros E HH HO. unfold orog_call, orography_gradient. rewrite E, HO. cbn [bind]. eexists. split; [reflexivity|].
  destruct (gradient T g hh) as [gx gy] eqn:EG. cbn [fst snd]. apply orog_value_get; auto.
  - pose proof (proj1 (et_grad_shape _ _ _ _ H (to_spectral T g hh))) as Q. unfold gradient in EG. now rewrite EG in Q.
  - pose proof (proj2 (et_grad_shape _ _ _ _ H (to_spectral T g hh))) as Q. unfold gradient in EG. now rewrite EG in Q.
Qed.
Lemma flat_gradient c : gradient T g (mat_of nr nc (fun _ _ => c)) = (mat_of nr nc (fun _ _ => 0), mat_of nr nc (fun _ _ => 0)).
Proof.
  unfold gradient, to_spectral. destruct (et_constant_field _ _ _ _ H c) as [m ->]. apply (et_constant_grad _ _ _ _ H).
Qed.
Lemma flat_relief c hh r : orography r g = Ok hh -> (forall i j, (i < nr)%nat -> (j < nc)%nat -> mget hh i j = c) -> hh = mat_of nr nc (fun _ _ => c).
Proof.
  intros HO Hc. apply (mat_ext nr nc); [eauto using orography_shaped|apply shaped_mat_of|]. intros i j Hi Hj. rewrite Hc, mget_mat_of by auto. reflexivity.
Qed.
End Forcing.

Lemma mk_orog_wind r H wk fact f : mk_orog r H (wk, fact) f =
  if String.eqb wk "act" then Ok (mkOrog r H WAct fact f) else if String.eqb wk "zon" then Ok (mkOrog r H WZon fact f)
  else if String.eqb wk "sbr" then Ok (mkOrog r H WSbr fact f) else Err ValueError.
Proof. reflexivity. Qed.

(** ** C44 *)
Lemma hash_eqb_spec a b : hash_eqb a b = true -> g_nlat a = g_nlat b /\ g_nlon a = g_nlon b /\ g_rsphere a = g_rsphere b
  /\ g_omega a = g_omega b /\ g_ntrunc a = g_ntrunc b.
Proof.
  unfold hash_eqb. rewrite !andb_true_iff. intros [[[[A B] C] D] E].
  apply Nat.eqb_eq in A, B, E. apply Reqb_true in C, D. auto.
Qed.
Lemma gradient_key T r a b : hash_eqb a b = true -> orography_gradient T r a = orography_gradient T r b.
Proof.
  intros Hab. destruct (hash_eqb_spec _ _ Hab) as [E1 [E2 [E3 [E4 E5]]]]. unfold orography_gradient.
  assert (EO : orography r a = orography r b).
  { destruct r; cbn [orography]; unfold interp_orography, g_lon2, g_lam2, g_lat2, g_lam, g_phi, g_lat, g_lon; now rewrite E1, E2. }
  rewrite EO. destruct (orography r b); [|reflexivity]. cbn [bind]. unfold gradient, to_spectral, sph. now rewrite E1, E2, E3, E5.
Qed.
Section Cache.
Context {K : numtype} (T : sphfam) (objects : nat -> orog).
Definition good (c : cache) : Prop :=
  Forall (fun e => orography_gradient T (o_relief (objects (fst (fst e)))) (snd (fst e)) = Ok (snd e)) c.
Lemma take_spec k : forall c e c', cache_take k c = Some (e, c') -> key_eqb (fst e) k = true /\ In e c /\ (forall x, In x c' -> In x c) /\ length c = S (length c').
Proof.
  induction c as [|x c IH]; intros e c' E; cbn in E; [discriminate|]. destruct (key_eqb (fst x) k) eqn:EK.
  - injection E as <- <-. split; [exact EK|]. split; [now left|]. split; [intros; now right|reflexivity].
  - destruct (cache_take k c) as [[e' c'']|] eqn:ET; [|discriminate]. injection E as <- <-.
    destruct (IH e' c'' eq_refl) as [A [B [C D]]]. split; [exact A|]. split; [now right|]. split.
    + intros y [<-|Hy]; [now left|right; auto].
    + cbn. lia.
Qed.
Lemma cached_good i g c : good c -> (length c <= maxsize)%nat ->
  let '(r, c') := cached_gradient T (o_relief (objects i)) (i, g) c in
  r = orography_gradient T (o_relief (objects i)) g /\ good c' /\ (length c' <= maxsize)%nat.
Proof.
  intros HG HL. unfold cached_gradient. destruct (cache_take (i, g) c) as [[e c']|] eqn:ET.
  - destruct (take_spec _ _ _ _ ET) as [A [B [C D]]]. unfold key_eqb in A. rewrite !andb_true_iff in A. destruct A as [[A1 A2] _].
    apply Nat.eqb_eq in A1. cbn [fst snd] in *. unfold good in *. rewrite Forall_forall in HG. pose proof (HG _ B) as Q.
    split; [|split].
    + rewrite <- Q, A1. now apply gradient_key.
    + apply Forall_forall. intros x [<-|Hx]; auto.
    + cbn [length]. lia.
  - cbn [snd]. destruct (orography_gradient T (o_relief (objects i)) g) as [v|x] eqn:EG; [|auto].
    split; [reflexivity|]. split; [|rewrite firstn_length; lia].
    unfold good in *. rewrite Forall_forall in *. intros x Hx.
    assert (Hx' : In x (((i, g), v) :: c)) by (rewrite <- (firstn_skipn maxsize (((i, g), v) :: c)); apply in_or_app; now left).
    destruct Hx' as [<-|Hx']; [exact EG|auto].
Qed.
Lemma cached_history (h : list (nat * state K)) : forall c, good c -> (length c <= maxsize)%nat ->
  fst (evaluate T objects h c) = map (fun p => orog_call T (objects (fst p)) (snd p)) h
  /\ good (snd (evaluate T objects h c)) /\ (length (snd (evaluate T objects h c)) <= maxsize)%nat.
Proof.
  induction h as [|[i s] h IH]; intros c HG HL; cbn [evaluate map fst snd]; [auto|].
  unfold cached_call. pose proof (cached_good i (s_grid s) c HG HL) as Q.
  destruct (cached_gradient T (o_relief (objects i)) (i, s_grid s) c) as [r c']. destruct Q as [-> [G' L']].
  destruct (IH c' G' L') as [A [B C]]. destruct (evaluate T objects h c') as [rs c'']. cbn [fst snd] in *.
  split; [|auto]. rewrite A. f_equal.
Qed.
End Cache.

Lemma fresh_entries {K} T (objects : nat -> orog) (s : state K) :
  (forall i, exists v, orography_gradient T (o_relief (objects i)) (s_grid s) = Ok v) ->
  forall n i c, (forall e, In e c -> (fst (fst e) < i)%nat) -> (length c <= 8)%nat ->
  length (snd (evaluate T objects (map (fun i => (i, s)) (seq i n)) c)) = Nat.min 8 (n + length c).
Proof.
  intros HV. induction n as [|n IH]; intros i c Hc L; [cbn [seq map evaluate snd]; lia|].
  cbn [seq map evaluate]. unfold cached_call, cached_gradient.
  assert (EN : cache_take (i, s_grid s) c = None).
  { clear -Hc. induction c as [|e c IHc]; [reflexivity|]. cbn [cache_take]. unfold key_eqb at 1. cbn [fst snd].
    pose proof (Hc e (or_introl eq_refl)). destruct (Nat.eqb_spec (fst (fst e)) i); [lia|]. cbn [andb]. rewrite IHc; [reflexivity|]. intros; apply Hc; now right. }
  rewrite EN. cbn [snd]. destruct (HV i) as [v ->]. cbn [bind].
  set (c' := firstn maxsize (((i, s_grid s), v) :: c)).
  assert (LC : length c' = Nat.min 8 (S (length c))) by (unfold c'; rewrite firstn_length; reflexivity).
  specialize (IH (S i) c').
  destruct (evaluate T objects (map (fun i => (i, s)) (seq (S i) n)) c') as [rs c''] eqn:EE. cbn [snd] in *.
  rewrite IH, LC; try lia. intros e He.
  assert (He2 : In e (((i, s_grid s), v) :: c)) by (rewrite <- (firstn_skipn maxsize (_ :: c)); apply in_or_app; now left).
  destruct He2 as [<-|He2]; [cbn; lia|]. specialize (Hc e He2). lia.
Qed.

(** ** C45, C46 *)
Lemma gauss_pos x c s : 0 < gauss x c s. Proof. apply exp_pos. Qed.
Lemma gauss_le1 x c s : s <> 0 -> gauss x c s <= 1.
Proof.
  intros Hs. unfold gauss.
  assert (Q : - (1 / 2) * (x - c) ^ 2 / s ^ 2 <= 0).
  { apply Rmult_le_reg_r with (s ^ 2); [apply pow2_gt_0; exact Hs|]. unfold Rdiv at 1. rewrite Rmult_assoc, Rinv_l by (apply pow_nonzero; exact Hs).
    pose proof (pow2_ge_0 (x - c)). lra. }
  destruct Q as [Q|Q]; [left; pose proof (exp_increasing _ _ Q) as Q2; rewrite exp_0 in Q2; exact Q2|right; rewrite Q; apply exp_0].
Qed.
Lemma gauss_centre c s : gauss c c s = 1.
Proof. unfold gauss. replace (- (1 / 2) * (c - c) ^ 2 / s ^ 2) with 0 by (unfold Rdiv; ring). apply exp_0. Qed.
Lemma gauss_mountain_get g height clon clat slon slat m : orography (RGauss height clon clat slon slat) g = Ok m ->
  shaped (g_nlat g) (g_nlon g) m /\ forall i j, (i < g_nlat g)%nat -> (j < g_nlon g)%nat ->
  mget m i j = height * gauss (nth j (g_lon g) 0) clon slon * gauss (nth i (g_lat g) 0) clat slat.
Proof.
  intros E. split; [eapply orography_shaped; exact E|]. cbn in E. apply Ok_inj in E. subst m. intros i j Hi Hj.
  rewrite (mget_map2 (g_nlat g) (g_nlon g)) by auto using lon2_shaped, lat2_shaped. now rewrite lon2_get, lat2_get.
Qed.
Lemma sine_mountain_get g height clat slat k m : orography (RSine height clat slat k) g = Ok m ->
  shaped (g_nlat g) (g_nlon g) m /\ forall i j, (i < g_nlat g)%nat -> (j < g_nlon g)%nat ->
  mget m i j = height * (1 / 2 * (1 + cos (k * deg2rad (nth j (g_lon g) 0)))) * gauss (nth i (g_lat g) 0) clat slat.
Proof.
  intros E. split; [eapply orography_shaped; exact E|]. cbn in E. apply Ok_inj in E. subst m. intros i j Hi Hj.
  rewrite (mget_map2 (g_nlat g) (g_nlon g)) by auto using lam2_shaped, lat2_shaped. rewrite lam2_get, lat2_get by auto. now rewrite lam_nth by exact Hj.
Qed.
Lemma angular_small x c d : angular_distance x c d -> Rabs (x - c) <= 180 -> (x - c) ^ 2 = d ^ 2.
Proof.
  intros [[D1 D2] [k Hk]] HB. apply Rabs_le_between in HB.
  assert (IK : IZR k <= -1 \/ k = 0%Z \/ 1 <= IZR k).
  { destruct (Z_lt_le_dec k 0) as [L|L]; [left; apply (IZR_le k (-1)); lia|]. destruct (Z.eq_dec k 0); [auto|]. right; right. apply (IZR_le 1 k). lia. }
  destruct IK as [IK|[->|IK]].
  - assert (IZR k = -1 /\ (d = 180)).
    { destruct Hk as [Hk|Hk]; split; nra. }
    destruct H as [H ->]. rewrite H in Hk. destruct Hk as [-> | Hk]; [ring|]. lra.
  - rewrite Rmult_0_r, !Rplus_0_r in Hk. destruct Hk as [-> | ->]; ring.
  - assert (IZR k = 1 /\ (d = 180)).
    { destruct Hk as [Hk|Hk]; split; nra. }
    destruct H as [H ->]. rewrite H in Hk. destruct Hk as [Hk|Hk]; [lra|]. rewrite Hk. ring.
Qed.
