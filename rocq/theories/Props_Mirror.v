(** Contours, zonalized profile and wave activity of the reflected field (C114). *)
From Coq Require Export String.
From Verif Require Import Base Model_Grid Model_Quad Model_Falwa Spec_Grid Spec_Quad Spec_Interp Spec_Sym Spec_Symmetry Spec_Mirror Proofs_Base Proofs_Grid Proofs_Trig
  Proofs_Region Proofs_Quad Proofs_Zonalize Proofs_Interp Proofs_Box Proofs_Falwa Proofs_Profile Proofs_Sym Proofs_Symmetry Proofs_SymForcing Proofs_Mirror.
From Verif Require Import Model_Time Model_Spectral Model_State Spec_Spectral Spec_State Spec_Instance Proofs_Spectral Proofs_Instance Proofs_State Proofs_Run Proofs_Step Props_Falwa Proofs_SymInst Props_Symmetry.
From Verif Require Import Model_Region.
From Coq Require Import List Lia Lra.
Import ListNotations.
Open Scope R_scope.

(** Reflection in the equator with change of sign (which is what reflection does
    to vorticity): contours are found at the opposite levels and latitudes if no
    contour has an area of its own ... *)
Theorem C114_contours : forall res rs om nt g, mk_grid res rs om nt = Ok g -> is_integer (360 / res) ->
  forall nc f levels qd q y, known_method qd -> (0 < nc <= g_nlon g)%nat -> shaped (g_nlat g) nc f ->
  zonalize_contours g f levels qd = Ok (q, y) -> (forall t, In t q -> no_ties qd (g_nlat g) nc f t) ->
  zonalize_contours g (mirror (-1) f) (opposite_levels levels) qd = Ok (opposite q, opposite y).
Proof. intros res rs om nt g Hg HI nc f levels qd q y Hm Hc Sf E T. now apply (contours_mirror _ _ _ _ _ Hg nc f levels qd q y). Qed.
Print Assumptions C114_contours.
(** ... and the profile is reversed with opposite sign if the contours have
    different latitudes away from the poles. *)
Theorem C114_zonalize : forall res rs om nt g, mk_grid res rs om nt = Ok g -> is_integer (360 / res) ->
  forall nc f levels qd q y, known_method qd -> (0 < nc <= g_nlon g)%nat -> shaped (g_nlat g) nc f ->
  zonalize_contours g f levels qd = Ok (q, y) -> (forall t, In t q -> no_ties qd (g_nlat g) nc f t) -> inner_latitudes y ->
  zonalize g (mirror (-1) f) (opposite_levels levels) qd = on_ok opposite (zonalize g f levels qd).
Proof. intros res rs om nt g Hg HI nc f levels qd q y Hm Hc Sf E T Y. now apply (zonalize_mirror _ _ _ _ _ Hg nc f levels qd q y). Qed.
Print Assumptions C114_zonalize.
(** Local wave activity is reflected, without change of sign: it is the same for
    both hemispheres. *)
Theorem C114_falwa_contours : forall res rs om nt g, mk_grid res rs om nt = Ok g -> is_integer (360 / res) ->
  forall pv levels qd q y, known_method qd -> shaped (g_nlat g) (g_nlon g) pv ->
  zonalize_contours g pv levels qd = Ok (q, y) -> (forall t, In t q -> no_ties qd (g_nlat g) (g_nlon g) pv t) -> (qd = "boxcount"%string -> inner_latitudes y) ->
  falwa_contours g (mirror (-1) pv) (opposite_levels levels) qd = on_ok (fun r => (rev (fst r), opposite (snd r))) (falwa_contours g pv levels qd).
Proof. intros res rs om nt g Hg HI pv levels qd q y Hm Sf E T Y. now apply (falwa_contours_mirror _ _ _ _ _ Hg pv Sf levels qd q y). Qed.
Print Assumptions C114_falwa_contours.

Lemma interpolated_latitudes res rs om nt g (Hg : mk_grid res rs om nt = Ok g) pv levels qd q y rows yy : known_method qd -> shaped (g_nlat g) (g_nlon g) pv ->
  zonalize_contours g pv levels qd = Ok (q, y) -> inner_latitudes y -> falwa_contours g pv levels qd = Ok (rows, yy) ->
  inner_latitudes yy /\ shaped (length yy) (g_nlon g) rows /\ (0 < length yy)%nat.
Proof.
  intros Hm Sf E Y C. destruct (contours_inv _ _ _ _ _ Hg pv Sf levels qd rows yy Hm C) as [qq [_ [_ [-> [Hl [_ [NE [Hs Hb]]]]]]]].
  split; [|split].
  - destruct Hm as [->| ->]; [rewrite (Hb eq_refl); now apply (mid_inner _ _ _ _ _ Hg)|]. destruct (Hs eq_refl) as [E' _]. rewrite E in E'. injection E' as _ <-. exact Y.
  - now apply (frows_shaped _ _ _ _ _ Hg).
  - destruct yy; [easy|cbn; lia].
Qed.
Theorem C114_falwa : forall res rs om nt g, mk_grid res rs om nt = Ok g -> is_integer (360 / res) ->
  forall pv levels qd q y, known_method qd -> shaped (g_nlat g) (g_nlon g) pv ->
  zonalize_contours g pv levels qd = Ok (q, y) -> (forall t, In t q -> no_ties qd (g_nlat g) (g_nlon g) pv t) -> inner_latitudes y ->
  falwa g (mirror (-1) pv) (opposite_levels levels) qd = on_ok (@rev _) (falwa g pv levels qd).
Proof.
  intros res rs om nt g Hg HI pv levels qd q y Hm Sf E T Y. unfold falwa.
  rewrite (C114_falwa_contours _ _ _ _ _ Hg HI pv levels qd q y) by auto.
  destruct (falwa_contours g pv levels qd) as [[rows yy]|e] eqn:C; cbn [on_ok bind fst snd]; [|reflexivity].
  destruct (interpolated_latitudes _ _ _ _ _ Hg pv levels qd q y rows yy Hm Sf E Y C) as [Y' [S' P]].
  unfold interpolate_meridional_2d. pose proof (interp_2d_opp (g_nlon g) yy rows (0, 0) (g_lat g) P S' Y' (lat_in_poles g)) as X. now rewrite (lat_opposite _ _ _ _ _ Hg) in X.
Qed.
Print Assumptions C114_falwa.
Theorem C114_fawa : forall res rs om nt g, mk_grid res rs om nt = Ok g -> is_integer (360 / res) ->
  forall pv levels qd q y, known_method qd -> shaped (g_nlat g) (g_nlon g) pv ->
  zonalize_contours g pv levels qd = Ok (q, y) -> (forall t, In t q -> no_ties qd (g_nlat g) (g_nlon g) pv t) -> inner_latitudes y ->
  fawa g (mirror (-1) pv) (opposite_levels levels) qd = on_ok (@rev R) (fawa g pv levels qd).
Proof.
  intros res rs om nt g Hg HI pv levels qd q y Hm Sf E T Y. unfold fawa, fawa_contours.
  rewrite (C114_falwa_contours _ _ _ _ _ Hg HI pv levels qd q y) by auto.
  destruct (falwa_contours g pv levels qd) as [[rows yy]|e] eqn:C; cbn [on_ok bind fst snd]; [|reflexivity].
  destruct (interpolated_latitudes _ _ _ _ _ Hg pv levels qd q y rows yy Hm Sf E Y C) as [Y' [S' P]].
  unfold interpolate_meridional_1d. assert (Hl : length (map vmean rows) = length yy) by (rewrite map_length; apply S').
  pose proof (interp_1d_opp 1 yy (map vmean rows) (0, 0) (g_lat g) ltac:(ring) Hl Y' (lat_in_poles g)) as X. rewrite (lat_opposite _ _ _ _ _ Hg) in X.
  assert (F1 : forall l, flipped 1 l = rev l) by (intros l; unfold flipped; f_equal; rewrite <- (map_id l) at 2; apply map_ext; intros; ring).
  replace (swap 1 (0, 0)) with (0, 0) in X by (unfold swap; cbn [fst snd]; f_equal; ring). rewrite F1 in X. rewrite map_rev, X.
  destruct (interp1d_1d _ yy _ _); cbn [on_ok]; [now rewrite F1|reflexivity].
Qed.
Print Assumptions C114_fawa.
(** Latitudes of contours strictly between the extremes of a field lie strictly
    between the poles; automatic levels of a field that is not constant do. *)
Theorem C114_inner : forall res rs om nt g, mk_grid res rs om nt = Ok g ->
  forall nc f levels qd q y lo hi, known_method qd -> (0 < nc <= g_nlon g)%nat -> shaped (g_nlat g) nc f -> extremes (g_nlat g) nc f lo hi ->
  zonalize_contours g f levels qd = Ok (q, y) ->
  (forall t, In t q -> lo < t < hi) \/ (lo < hi /\ (levels = LNone \/ exists n, levels = LInt n)) -> forall x, In x y -> -90 < x < 90.
Proof.
  intros res rs om nt g Hg nc f levels qd q y lo hi Hm Hc Sf He E Hq x Hx. set (q0 := zonalize_levels g (mmin f) (mmax f) levels qd).
  assert (H0 : q0 <> []).
  { intros E0. unfold zonalize_contours in E. fold q0 in E. rewrite E0 in E. destruct (_ || _); discriminate. }
  rewrite (zonalize_form _ _ _ _ _ Hg nc) in E by assumption. fold q0 in E. injection E as E1 E2. subst q y.
  assert (B : forall t, In t q0 -> lo < t < hi).
  { destruct Hq as [B|[L D]]; [exact B|]. destruct (mmin_mmax _ _ _ _ _ Sf He) as [M1 M2]. intros t Ht. unfold q0 in Ht. rewrite M1, M2 in Ht.
    destruct D as [->|[n ->]]; cbn [zonalize_levels] in Ht; eapply (auto_levels_facts lo hi); eauto. }
  apply in_map_iff in Hx. destruct Hx as [t [<- Ht]]. specialize (B t Ht). destruct He as [_ [[i [j [Hi [Hj El]]]] [k [l [Hk [Hl Eh]]]]]].
  split.
  - apply (fy_gt _ _ _ _ _ Hg qd nc f Hm Hc t i j); [assumption..|lra].
  - apply (fy_lt _ _ _ _ _ Hg qd nc f Hm Hc t k l); [assumption..|lra].
Qed.
Print Assumptions C114_inner.
(** State.fawa of the reflected atmosphere. *)
Theorem C114_state : forall K T g res rs om nt, mk_grid res rs om nt = Ok g -> is_integer (360 / res) -> exact_on T g -> reflects T g ->
  forall (s : state K) q y, s_grid s = g -> length (s_pvs s) = nspec (g_ntrunc g) ->
  zonalize_contours g (s_pv T s) LNone "sptrapz" = Ok (q, y) -> (forall t, In t q -> no_ties "sptrapz" (g_nlat g) (g_nlon g) (s_pv T s) t) -> inner_latitudes y ->
  state_fawa g (s_pv T (reflected s)) = on_ok (@rev _) (state_fawa g (s_pv T s)).
Proof.
  intros K T g res rs om nt Hg HI H HR s q y G L E Ti Y. destruct (C111_fields K T g res rs om nt Hg H s G L) as [_ X]. destruct (X HR) as [-> _].
  assert (Sf : shaped (g_nlat g) (g_nlon g) (s_pv T s)) by (unfold s_pv; rewrite G; apply (B_shape T g H)).
  unfold state_fawa, mean_falwa. pose proof (C114_falwa _ _ _ _ _ Hg HI (s_pv T s) LNone "sptrapz" q y (or_intror eq_refl) Sf E Ti Y) as W. cbn [opposite_levels] in W. rewrite W.
  destruct (falwa g (s_pv T s) LNone "sptrapz"); cbn [on_ok bind]; [|reflexivity]. now rewrite map_rev.
Qed.
Print Assumptions C114_state.

(** The condition on the contours is needed: a vortex pair in a motionless
    atmosphere, PV antisymmetric about the equator, with the automatic levels; the
    contour 0 is not found at the equator. *)
Definition pair_field : mat := mat_of 3 4 (fun i j => if Nat.eqb j 0 then 1 - INR i else 0).
Theorem C114_ties_needed : mk_grid 90 1 0 None = Ok (gridA 1) /\ is_integer (360 / 90) /\ shaped 3 4 pair_field /\ mirror (-1) pair_field = pair_field
  /\ exists q y, zonalize_contours (gridA 1) pair_field LNone "sptrapz" = Ok (q, y)
     /\ opposite q = q /\ nth 1 q 0 = 0 /\ nth 1 y 0 < 0 /\ opposite y <> y.
Proof.
  assert (Hg : mk_grid 90 1 0 None = Ok (gridA 1)) by (apply gridA_ok; lra). assert (Sf : shaped 3 4 pair_field) by apply shaped_mat_of.
  assert (MI : mirror (-1) pair_field = pair_field).
  { apply (mat_ext 3 4); [now apply shaped_mirror|assumption|]. intros i j Hi Hj. rewrite (mget_mirror _ 3 4) by assumption. unfold pair_field. rewrite !mget_mat_of by lia.
    destruct (Nat.eqb j 0); [|ring]. destruct i as [|[|[|i]]]; [cbn; ring..|lia]. }
  split; [exact Hg|]. split; [exact gridA_integer|]. split; [exact Sf|]. split; [exact MI|].
  assert (He : extremes 3 4 pair_field (-1) 1).
  { split; [|split].
    - intros i j Hi Hj. unfold pair_field. rewrite mget_mat_of by assumption. destruct (Nat.eqb j 0); [|lra]. destruct i as [|[|[|i]]]; [cbn; lra..|lia].
    - exists 2%nat, 0%nat. split; [lia|]. split; [lia|]. unfold pair_field. rewrite mget_mat_of by lia. cbn. ring.
    - exists 0%nat, 0%nat. split; [lia|]. split; [lia|]. unfold pair_field. rewrite mget_mat_of by lia. cbn. ring. }
  destruct (mmin_mmax _ _ _ _ _ Sf He) as [M1 M2].
  set (q := auto_levels (-1) 1 3). assert (EL : zonalize_levels (gridA 1) (mmin pair_field) (mmax pair_field) LNone "sptrapz" = q) by (rewrite M1, M2; reflexivity).
  assert (Lq : length q = 3%nat) by (unfold q; rewrite auto_levels_tab; apply tab_length).
  assert (Oq : opposite q = q) by (unfold q; rewrite <- (auto_opp _ _ _ _ _ Hg); f_equal; ring).
  assert (Q1 : nth 1 q 0 = 0). { pose proof (opposite_nth q 1 ltac:(lia)) as X. rewrite Oq, Lq in X. cbn [Nat.sub] in X. lra. }
  exists q, (map (fun t => eqlat1 (gridA 1) (farea 90 1 (gridA 1) "sptrapz" 4 pair_field t)) q).
  assert (E : zonalize_contours (gridA 1) pair_field LNone "sptrapz" = Ok (q, map (fun t => eqlat1 (gridA 1) (farea 90 1 (gridA 1) "sptrapz" 4 pair_field t)) q)).
  { rewrite (zonalize_form _ _ _ _ _ Hg 4); [now rewrite EL|now right|cbn; lia|assumption|]. rewrite EL. intros X. rewrite X in Lq. discriminate. }
  split; [exact E|]. split; [exact Oq|]. split; [exact Q1|].
  assert (Y1 : nth 1 (map (fun t => eqlat1 (gridA 1) (farea 90 1 (gridA 1) "sptrapz" 4 pair_field t)) q) 0 < 0).
  { rewrite (nth_map_lt _ _ _ 0) by lia. rewrite Q1.
    apply (proj1 (fy_cap _ _ _ _ _ Hg "sptrapz" 4 pair_field (or_intror eq_refl) ltac:(cbn; lia) 0 0 ltac:(lra))).
    rewrite cap_area_formula. replace (deg2rad 0) with 0 by (unfold deg2rad; field). rewrite sin_0.
    unfold farea, carea. cbn [gridA g_nlon]. replace (INR 4 / INR 4) with 1 by (field; simpl; lra).
    assert (C0 : 0 <= cq (gridA 1) "sptrapz" (fun _ => 1) (fun i => mget pair_field i 0 - 0)) by (apply (cq_bounds _ _ _ _ _ Hg); now right).
    assert (C1 : forall j, (1 <= j < 4)%nat -> cq (gridA 1) "sptrapz" (fun _ => 1) (fun i => mget pair_field i j - 0) = 2).
    { intros j Hj. transitivity (cq (gridA 1) "sptrapz" (fun _ => 1) (fun _ => 1)); [|rewrite (cq_one _ _ _ _ _ Hg) by (now right); ring].
      unfold cq. cbn [is_boxcount String.eqb Ascii.eqb Bool.eqb]. f_equal. apply tab_ext. intros i Hi. change (i < 2)%nat in Hi.
      assert (Z : forall k, (k < 3)%nat -> mget pair_field k j - 0 = 0) by (intros k Hk; unfold pair_field; rewrite mget_mat_of by lia; destruct j; [lia|cbn; ring]).
      unfold sg, seg_trapz. cbn [fst snd]. rewrite !Z by lia. replace (Rleb 0 0) with true by (symmetry; apply Rleb_true; lra). replace (Rleb 0 1) with true by (symmetry; apply Rleb_true; lra). reflexivity. }
    change (tab 4 ?f) with [f 0%nat; f 1%nat; f 2%nat; f 3%nat]. cbn [Rsum fold_right]. rewrite (C1 1%nat), (C1 2%nat), (C1 3%nat) by lia. unfold deg2rad. pose proof PI_RGT_0. nra. }
  split; [exact Y1|]. intros O. set (y := map _ q) in *. assert (Ly : length y = 3%nat) by (unfold y; now rewrite map_length).
  pose proof (opposite_nth y 1 ltac:(lia)) as X. rewrite O, Ly in X. cbn [Nat.sub] in X. lra.
Qed.
Print Assumptions C114_ties_needed.
(** So is the one on the resolution: without it the circles of latitude are not
    closed, and the areas inside and outside a contour do not add up to the sphere. *)
Theorem C114_resolution_needed : exists g f q y y', mk_grid 7 1 1 None = Ok g /\ shaped (g_nlat g) (g_nlon g) f /\ mirror (-1) f = f
  /\ (forall t, no_ties "sptrapz" (g_nlat g) (g_nlon g) f t)
  /\ zonalize_contours g f (LArr [q]) "sptrapz" = Ok ([q], [y]) /\ zonalize_contours g f (LArr [- q]) "sptrapz" = Ok ([- q], [y']) /\ y' <> - y.
Proof.
  destruct grid7 as [g [Hg [Hlon [Hlat _]]]]. set (f := g_lat2 g). assert (Sf : shaped (g_nlat g) (g_nlon g) f) by apply lat2_shaped.
  assert (Gf : forall i j, (i < g_nlat g)%nat -> (j < g_nlon g)%nat -> mget f i j = nth i (g_lat g) 0) by (intros; now apply lat2_get).
  assert (MI : mirror (-1) f = f).
  { apply (mat_ext (g_nlat g) (g_nlon g)); [now apply shaped_mirror|assumption|]. intros i j Hi Hj. rewrite (mget_mirror _ (g_nlat g) (g_nlon g)) by assumption.
    rewrite !Gf by lia. rewrite (lat_opp _ _ _ _ _ Hg) by assumption. ring. }
  assert (NT : forall t, no_ties "sptrapz" (g_nlat g) (g_nlon g) f t).
  { intros t. split; [discriminate|]. intros _ i j Hi Hj [E1 E2]. rewrite !Gf in E1, E2 by lia.
    pose proof (phi_step _ _ _ _ _ Hg i ltac:(lia)) as X. unfold g_phi in X. rewrite !(nth_map_lt _ _ _ 0) in X by (rewrite lat_length; lia). apply deg2rad_lt in X. lra. }
  exists g, f, 1. assert (Z : forall t, zonalize_contours g f (LArr [t]) "sptrapz" = Ok ([t], [eqlat1 g (farea 7 1 g "sptrapz" (g_nlon g) f t)])).
  { intros t. rewrite (zonalize_form _ _ _ _ _ Hg (g_nlon g)); [reflexivity|now right|lia|assumption|easy]. }
  eexists. eexists. split; [exact Hg|]. split; [exact Sf|]. split; [exact MI|]. split; [exact NT|]. split; [apply Z|]. split; [apply Z|].
  intros E. pose proof (farea_opp_kappa _ _ _ _ _ Hg "sptrapz" (g_nlon g) f 1 (or_intror eq_refl) ltac:(lia) Sf (NT 1)) as A. rewrite MI in A.
  destruct (fy_spec _ _ _ _ _ Hg "sptrapz" (g_nlon g) f (or_intror eq_refl) ltac:(lia) 1) as [_ C1].
  destruct (fy_spec _ _ _ _ _ Hg "sptrapz" (g_nlon g) f (or_intror eq_refl) ltac:(lia) (Ropp 1)) as [_ C2].
  rewrite E in C2. rewrite cap_area_formula in C1, C2.
  set (y := eqlat1 g (farea 7 1 g "sptrapz" (g_nlon g) f 1)) in *. replace (deg2rad (- y)) with (- deg2rad y) in C2 by (unfold deg2rad; field). rewrite sin_neg in C2.
  unfold kappa in A. rewrite Hlon in A. replace (INR 51) with 51 in A by (simpl; ring). rewrite Hlon in C1, C2.
  pose proof PI_RGT_0. nra.
Qed.
Print Assumptions C114_resolution_needed.

(** An anomaly in the northern hemisphere: one contour, between the poles, with
    waves on it. *)
Definition north_anomaly : mat := mat_of 3 4 (fun i j => if Nat.eqb i 0 then (if Nat.eqb j 0 then 2 else 1) else - INR i).
Example C114_nonvacuous : mk_grid 90 1 0 None = Ok (gridA 1) /\ is_integer (360 / 90) /\ shaped 3 4 north_anomaly /\ extremes 3 4 north_anomaly (-2) 2
  /\ mirror (-1) north_anomaly <> north_anomaly
  /\ (forall qd, known_method qd -> no_ties qd 3 4 north_anomaly (/ 2) /\ exists y, zonalize_contours (gridA 1) north_anomaly (LArr [/ 2]) qd = Ok ([/ 2], [y]) /\ inner_latitudes [y])
  /\ exists x y, falwa_contours (gridA 1) north_anomaly (LArr [/ 2]) "sptrapz" = Ok ([x], [y]).
Proof.
  assert (Hg : mk_grid 90 1 0 None = Ok (gridA 1)) by (apply gridA_ok; lra). assert (Sf : shaped 3 4 north_anomaly) by apply shaped_mat_of.
  assert (He : extremes 3 4 north_anomaly (-2) 2).
  { split; [|split].
    - intros i j Hi Hj. unfold north_anomaly. rewrite mget_mat_of by assumption. destruct i as [|[|[|i]]]; [cbn; destruct (Nat.eqb j 0); lra|cbn; lra..|lia].
    - exists 2%nat, 0%nat. split; [lia|]. split; [lia|]. unfold north_anomaly. rewrite mget_mat_of by lia. cbn. ring.
    - exists 0%nat, 0%nat. split; [lia|]. split; [lia|]. unfold north_anomaly. rewrite mget_mat_of by lia. cbn. ring. }
  assert (N0 : forall i j, (i < 3)%nat -> (j < 4)%nat -> mget north_anomaly i j <> / 2).
  { intros i j Hi Hj. unfold north_anomaly. rewrite mget_mat_of by assumption. destruct i as [|[|[|i]]]; [cbn; destruct (Nat.eqb j 0); lra|cbn; lra..|lia]. }
  assert (Z : forall qd, known_method qd -> exists y, zonalize_contours (gridA 1) north_anomaly (LArr [/ 2]) qd = Ok ([/ 2], [y])).
  { intros qd Hm. eexists. rewrite (zonalize_form _ _ _ _ _ Hg 4); [reflexivity|assumption|cbn; lia|assumption|easy]. }
  split; [exact Hg|]. split; [exact gridA_integer|]. split; [exact Sf|]. split; [exact He|]. split; [|split].
  - intros E. apply (f_equal (fun m => mget m 0 1)) in E. rewrite (mget_mirror _ 3 4) in E by (auto; lia). unfold north_anomaly in E. rewrite !mget_mat_of in E by lia. cbn in E. lra.
  - intros qd Hm. split; [split; intros _; [auto|]; intros i j Hi Hj [E _]; revert E; apply N0; lia|].
    destruct (Z qd Hm) as [y Ey]. exists y. split; [exact Ey|]. split; [repeat constructor; easy|].
    apply (C114_inner _ _ _ _ _ Hg 4 north_anomaly (LArr [/ 2]) qd [/ 2] [y] (-2) 2 Hm ltac:(cbn; lia) Sf He Ey). left. intros t [<-|[]]. lra.
  - destruct (Z "sptrapz"%string (or_intror eq_refl)) as [y Ey]. unfold falwa_contours, falwa_background. rewrite Ey. cbn [bind is_boxcount String.eqb Ascii.eqb Bool.eqb combine res_map fst snd].
    rewrite (row_form _ _ _ _ _ Hg north_anomaly Sf "sptrapz" (/ 2) y (or_intror eq_refl)). cbn [bind]. eexists. exists y. reflexivity.
Qed.
