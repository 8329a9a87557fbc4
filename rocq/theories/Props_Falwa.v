(** Theorems on finite-amplitude (local) wave activity: C69, C70, C71. *)
From Coq Require Export String.
From Verif Require Import Base Model_Grid Model_Quad Spec_Grid Spec_Region Spec_Quad Spec_Interp Spec_Falwa
  Proofs_Base Proofs_Grid Proofs_Region Proofs_Quad Proofs_Interp Proofs_Zonalize Proofs_Falwa Model_Falwa Model_Region.
From Coquelicot Require Import Coquelicot.
From Coq Require Import List Lia Lra.
Open Scope R_scope.

(** ** C69 *)
(** falwa accepts every PV field of the grid's shape, both quadratures and every
    non-empty set of levels, with and without interpolation, and the equivalent
    latitudes lie on the sphere; it fails for an empty set of levels. *)
Theorem C69_defined res rs om nt g pv levels qd : mk_grid res rs om nt = Ok g ->
  known_method qd -> shaped (g_nlat g) (g_nlon g) pv ->
  (valid_levels levels ->
    (exists rows yy, falwa_contours g pv levels qd = Ok (rows, yy) /\ shaped (length yy) (g_nlon g) rows
       /\ yy <> nil /\ within_poles yy)
    /\ exists f, falwa g pv levels qd = Ok f /\ shaped (g_nlat g) (g_nlon g) f)
  /\ (~ valid_levels levels -> falwa_contours g pv levels qd = Err ValueError /\ falwa g pv levels qd = Err ValueError).
Proof.
  intros Hg Hm Hpv. split.
  - intros G.
    destruct (background_form _ _ _ _ _ Hg pv Hpv levels qd Hm (valid_levels_ne _ _ _ _ _ Hg _ _ _ _ G))
      as [qq [yy [Eb [HL [W [_ [_ NE]]]]]]].
    split.
    + exists (frows g pv qd qq yy), yy. split; [eapply contours_form; eauto|]. split; [now apply (frows_shaped _ _ _ _ _ Hg)|]. auto.
    + eexists. split; [eapply falwa_form; eauto|]. split; [rewrite map_length; apply lat_length|].
      rewrite Forall_map. apply Forall_forall. intros x _. apply tab_length.
  - intros G. unfold falwa, falwa_contours, falwa_background.
    rewrite (bad_levels _ _ _ _ _ Hg pv Hpv levels qd G). split; reflexivity.
Qed.
Print Assumptions C69_defined.

(** The sptrapz wave activity of a contour q with equivalent latitude y is the
    integral of the activity density along the meridian, for the piecewise-linear
    interpolant P of the PV column, divided by cos(y); q and y are the contours
    of Grid.zonalize. *)
Theorem C69_integral res rs om nt g pv levels rows yy : mk_grid res rs om nt = Ok g ->
  shaped (g_nlat g) (g_nlon g) pv -> falwa_contours g pv levels "sptrapz" = Ok (rows, yy) ->
  exists qq, zonalize_contours g pv levels "sptrapz" = Ok (qq, yy)
    /\ forall k j P, (k < length yy)%nat -> (j < g_nlon g)%nat -> pl_interpolant (g_phi g) (mcol pv j) P ->
       is_RInt (activity_density rs P (nth k qq 0) (deg2rad (nth k yy 0))) (- (PI / 2)) (PI / 2)
         (mget rows k j * np_cosd (nth k yy 0)).
Proof.
  intros Hg Hpv E.
  destruct (contours_inv _ _ _ _ _ Hg pv Hpv levels "sptrapz" rows yy (or_intror eq_refl) E)
    as [qq [G [Eb [-> [HL [W [NE [Hs _]]]]]]]].
  destruct (Hs eq_refl) as [Ez _]. exists qq. split; [auto|]. intros k j P Hk Hj HP.
  rewrite (mcol_tab (g_nlat g) (g_nlon g)) in HP by auto.
  unfold mget. rewrite (frows_row _ _ _ _ _ Hg) by auto. unfold frow. rewrite tab_nth by auto.
  set (q := nth k qq 0). set (y := nth k yy 0).
  assert (Hy : -90 <= y <= 90) by (apply W; now apply nth_In). pose proof (np_cosd_pos y Hy) as C.
  replace (wave g pv "sptrapz" q y j / np_cosd y * np_cosd y) with (wave g pv "sptrapz" q y j) by (field; lra).
  unfold wave. pose proof (P_shift _ _ _ _ _ Hg _ P HP q) as HPq.
  pose proof (cq_is_RInt _ _ _ _ _ Hg _ _ _ _ HPq HPq) as I1.
  pose proof (cq_is_RInt _ _ _ _ _ Hg _ _ _ _ HPq (W_pl _ _ _ _ _ Hg y)) as I2.
  pose proof (is_RInt_minus _ _ _ _ _ _ I1 I2) as I3. eapply is_RInt_ext; [|exact I3].
  intros t Ht. unfold activity_density, masked, minus, plus, opp. simpl.
  destruct (Rle_dec 0 (P t - q)), (Rle_dec q (P t)); try lra;
  destruct (Rle_dec 0 (rad2deg t - y)) as [A|A], (Rle_dec (deg2rad y) t) as [B|B]; try lra; exfalso.
  all: try (apply B; rewrite <- (deg2rad_rad2deg t); apply (proj1 (deg2rad_le _ _)); lra).
  all: apply A; assert (y <= rad2deg t); [|lra]; apply (proj2 (deg2rad_le _ _)); now rewrite deg2rad_rad2deg.
Qed.
Print Assumptions C69_integral.

(** wave activity on contours is never negative *)
Theorem C69_nonnegative res rs om nt g pv levels qd rows yy : mk_grid res rs om nt = Ok g ->
  known_method qd -> shaped (g_nlat g) (g_nlon g) pv -> falwa_contours g pv levels qd = Ok (rows, yy) ->
  all_entries (fun x => 0 <= x) rows.
Proof.
  intros Hg Hm Hpv E.
  destruct (contours_inv _ _ _ _ _ Hg pv Hpv levels qd rows yy Hm E) as [qq [G [Eb [-> [HL [W _]]]]]].
  apply Forall_forall. intros r Hr. apply Forall_forall. intros x Hx.
  unfold frows in Hr. apply in_map_iff in Hr. destruct Hr as [[q y] [<- Hin]].
  apply (frow_nonneg _ _ _ _ _ Hg pv qd q y); auto. apply W. now apply in_combine_r in Hin.
Qed.
Print Assumptions C69_nonnegative.

(** Interpolated wave activity: every value is non-negative or NaN.  NaN only
    appears in the row at the south pole, only with sptrapz, and only if -90 is
    one of the equivalent latitudes.  Missing from the claim: the NaN case. *)
Theorem C69_interpolated_partial res rs om nt g pv levels qd rows yy f : mk_grid res rs om nt = Ok g ->
  known_method qd -> shaped (g_nlat g) (g_nlon g) pv -> falwa_contours g pv levels qd = Ok (rows, yy) ->
  falwa g pv levels qd = Ok f ->
  forall i j, (i < g_nlat g)%nat -> (j < g_nlon g)%nat ->
    match nth j (nth i f nil) (Some 0) with
    | Some v => 0 <= v
    | None => i = (g_nlat g - 1)%nat /\ qd = "sptrapz"%string /\ In (-90) yy
    end.
Proof.
  intros Hg Hm Hpv E Ef i j Hi Hj.
  destruct (contours_inv _ _ _ _ _ Hg pv Hpv levels qd rows yy Hm E) as [qq [G [Eb [-> [HL [W [NE [_ Hb]]]]]]]].
  rewrite (falwa_form _ _ _ _ _ Hg pv Hpv levels qd qq yy Hm Eb HL W NE) in Ef. apply Ok_inj in Ef. subst f.
  rewrite (nth_map_lt _ _ _ 0) by (rewrite lat_length; auto). rewrite tab_nth by auto.
  set (x := nth i (g_lat g) 0).
  assert (Hx : -90 <= x <= 90) by (apply (lat_poles g); apply nth_In; rewrite lat_length; auto).
  assert (exists M, 0 <= M /\ forall k, (k < length yy)%nat ->
    0 <= wave g pv qd (nth k qq 0) (nth k yy 0) j / np_cosd (nth k yy 0) <= M) as [M [HM HB]].
  { assert (HB : forall n, exists M, 0 <= M /\ forall k, (k < n)%nat ->
      wave g pv qd (nth k qq 0) (nth k yy 0) j / np_cosd (nth k yy 0) <= M).
    { induction n as [|n [M [HM IH]]]; [exists 0; split; [lra|lia]|].
      exists (Rmax M (wave g pv qd (nth n qq 0) (nth n yy 0) j / np_cosd (nth n yy 0))). split.
      - eapply Rle_trans; [exact HM|apply Rmax_l].
      - intros k Hk. destruct (Nat.eq_dec k n) as [->|]; [apply Rmax_r|].
        eapply Rle_trans; [apply IH; lia|apply Rmax_l]. }
    destruct (HB (length yy)) as [M [HM H]]. exists M. split; [auto|]. intros k Hk. split; [|auto].
    apply Rmult_le_pos; [eapply wave_nonneg; eauto|]. left. apply Rinv_0_lt_compat, np_cosd_pos, W. now apply nth_In. }
  pose proof (interp_range _ _ _ _ _ Hg pv qd qq yy j x 0 M HL W Hj ltac:(lra) HB Hx) as IR.
  destruct (eval_linear _ x) as [v|]; [lra|]. destruct IR as [IR1 IR2]. split; [|split; [|auto]].
  - destruct (Nat.eq_dec i (g_nlat g - 1)) as [|Hne]; [auto|]. exfalso.
    pose proof (nlat_gt1' _ _ _ _ _ Hg) as N1.
    pose proof (lat_decreasing g N1 i (g_nlat g - 1)%nat ltac:(lia) ltac:(rewrite ?lat_length; lia)) as D.
    assert (-90 <= nth (g_nlat g - 1) (g_lat g) 0) by (apply (lat_poles g); apply nth_In; rewrite lat_length; lia).
    unfold x in IR1. lra.
  - destruct Hm as [->| ->]; [|reflexivity]. exfalso. rewrite (Hb eq_refl) in IR2.
    apply (In_nth _ _ 0) in IR2. destruct IR2 as [k [Hk Ek]]. rewrite midpoints_length, lat_length in Hk.
    rewrite midpoints_nth in Ek by (rewrite lat_length; lia).
    pose proof (lat_decr _ _ _ _ _ Hg k ltac:(lia)) as D.
    assert (-90 <= nth (S k) (g_lat g) 0) by (apply (lat_poles g); apply nth_In; rewrite lat_length; lia). lra.
Qed.
Print Assumptions C69_interpolated_partial.

(** On every grid with 360/resolution an integer, the interpolated wave activity
    of a constant PV field with default levels is NaN at the south pole. *)
Theorem C69_refuted res rs om nt g c : mk_grid res rs om nt = Ok g -> is_integer (360 / res) ->
  exists f, falwa g (mat_of (g_nlat g) (g_nlon g) (fun _ _ => c)) LNone "sptrapz" = Ok f
    /\ forall j, (j < g_nlon g)%nat -> nth j (nth (g_nlat g - 1) f nil) (Some 0) = None.
Proof.
  intros Hg Hint. set (pv := mat_of _ _ _). pose proof (nlat_gt1' _ _ _ _ _ Hg) as N1.
  assert (Hpv : shaped (g_nlat g) (g_nlon g) pv) by apply shaped_mat_of.
  assert (Hm : known_method "sptrapz") by now right.
  destruct (background_form _ _ _ _ _ Hg pv Hpv LNone "sptrapz" Hm (valid_levels_ne _ _ _ _ _ Hg _ _ LNone _ I))
      as [qq [yy [Eb [HL [W [Hs [_ NE]]]]]]].
  destruct (Hs eq_refl) as [Eq Ey].
  assert (X : extremes (g_nlat g) (g_nlon g) pv c c).
  { pose proof (nlon_pos _ _ _ _ _ Hg). split; [|split]; [|exists 0%nat, 0%nat..].
    - intros i j Hi Hj. unfold pv. rewrite mget_mat_of by auto. lra.
    - split; [lia|]. split; [lia|]. unfold pv. now rewrite mget_mat_of by lia.
    - split; [lia|]. split; [lia|]. unfold pv. now rewrite mget_mat_of by lia. }
  destruct (mmin_mmax _ _ _ _ _ Hpv X) as [M1 M2]. rewrite M1, M2 in *. cbn [zonalize_levels] in Eq, Ey.
  rewrite const_levels in Eq, Ey.
  assert (S90 : In (-90) yy).
  { rewrite Ey. apply in_map_iff. exists c. split; [eapply const_south; eauto; reflexivity|].
    apply in_map_iff. exists 0%nat. split; [reflexivity|]. apply in_seq. cbn [is_boxcount String.eqb Ascii.eqb Bool.eqb]. lia. }
  eexists. split; [eapply falwa_form; eauto|]. intros j Hj.
  rewrite (nth_map_lt _ _ _ 0) by (rewrite lat_length; lia). rewrite tab_nth by auto.
  replace (nth (g_nlat g - 1) (g_lat g) 0) with (-90).
  - rewrite lin_south; auto.
    + destruct (in_dec Req_EM_T (-90) yy); [reflexivity|contradiction].
    + rewrite mcol_length. now apply (frows_length _ _ _ _ _ Hg).
  - rewrite lat_nth by lia. field. apply not_0_INR. lia.
Qed.
Print Assumptions C69_refuted.

(** ** C70 *)
(** PV decreasing from north to south and independent of longitude has no wave
    activity on any contour, if the grid's longitudes close the circle. *)
Theorem C70_contours res rs om nt g p levels rows yy : mk_grid res rs om nt = Ok g -> is_integer (360 / res) ->
  (forall i, (S i < g_nlat g)%nat -> p (S i) < p i) ->
  falwa_contours g (mat_of (g_nlat g) (g_nlon g) (fun i _ => p i)) levels "sptrapz" = Ok (rows, yy) ->
  all_entries (fun x => x = 0) rows.
Proof.
  intros Hg Hint Hp E. set (pv := mat_of _ _ _) in *.
  assert (Hpv : shaped (g_nlat g) (g_nlon g) pv) by apply shaped_mat_of.
  destruct (interpolant_exists _ _ _ _ _ Hg p) as [P HP].
  destruct (contours_inv _ _ _ _ _ Hg pv Hpv levels "sptrapz" rows yy (or_intror eq_refl) E)
    as [qq [G [Eb [-> [HL [W [NE [Hs _]]]]]]]].
  destruct (Hs eq_refl) as [_ [_ Ey]].
  apply Forall_forall. intros r Hr. apply (In_nth _ _ nil) in Hr. destruct Hr as [k [Hk <-]].
  rewrite (frows_length _ _ _ _ _ Hg) in Hk by auto. rewrite (frows_row _ _ _ _ _ Hg) by auto.
  rewrite frow_zero.
  - apply Forall_forall. intros x Hx. apply in_map_iff in Hx. now destruct Hx as [j [<- _]].
  - intros j Hj. rewrite Ey. rewrite (nth_map_lt _ _ _ 0) by lia.
    eapply (sym_zero _ _ _ _ _ Hg pv p P Hp HP eq_refl); auto.
Qed.
Print Assumptions C70_contours.

(** The same after interpolation to the grid with the default or a number of levels. *)
Theorem C70_interpolated_partial res rs om nt g p levels : mk_grid res rs om nt = Ok g -> is_integer (360 / res) ->
  (forall i, (S i < g_nlat g)%nat -> p (S i) < p i) ->
  (levels = LNone \/ exists n, levels = LInt n /\ (0 < n)%Z) ->
  falwa g (mat_of (g_nlat g) (g_nlon g) (fun i _ => p i)) levels "sptrapz"
  = Ok (tab (g_nlat g) (fun _ => tab (g_nlon g) (fun _ => Some 0))).
Proof.
  intros Hg Hint Hp Hlev. set (pv := mat_of _ _ _) in *.
  assert (Hpv : shaped (g_nlat g) (g_nlon g) pv) by apply shaped_mat_of.
  assert (Hm : known_method "sptrapz") by now right.
  pose proof (nlat_gt1' _ _ _ _ _ Hg) as N1. pose proof (nlon_pos _ _ _ _ _ Hg) as NL.
  assert (V : valid_levels levels) by (destruct Hlev as [->|[n [-> Hn]]]; cbn [valid_levels]; auto).
  destruct (interpolant_exists _ _ _ _ _ Hg p) as [P HP].
  destruct (background_form _ _ _ _ _ Hg pv Hpv levels "sptrapz" Hm (valid_levels_ne _ _ _ _ _ Hg _ _ levels _ V))
      as [qq [yy [Eb [HL [W [Hs [_ NE]]]]]]].
  destruct (Hs eq_refl) as [Eq Ey].
  pose proof (p_decr _ _ _ _ _ Hg p Hp) as PD.
  assert (X : extremes (g_nlat g) (g_nlon g) pv (p (g_nlat g - 1)%nat) (p 0%nat)).
  { split; [|split].
    - intros i j Hi Hj. unfold pv. rewrite mget_mat_of by auto. split; apply PD; lia.
    - exists (g_nlat g - 1)%nat, 0%nat. split; [lia|]. split; [lia|]. unfold pv. now rewrite mget_mat_of by lia.
    - exists 0%nat, 0%nat. split; [lia|]. split; [lia|]. unfold pv. now rewrite mget_mat_of by lia. }
  destruct (mmin_mmax _ _ _ _ _ Hpv X) as [M1 M2].
  assert (Hlt : p (g_nlat g - 1)%nat < p 0%nat).
  { pose proof (Hp 0%nat N1). pose proof (PD 1%nat (g_nlat g - 1)%nat ltac:(lia) ltac:(lia)). lra. }
  assert (NS : ~ In (-90) yy).
  { rewrite Ey. intros H. apply in_map_iff in H. destruct H as [q [Eq' Hin]].
    assert (Hq : p (g_nlat g - 1)%nat < q).
    { rewrite M1, M2 in Hin.
      destruct Hlev as [->|[n [-> Hn]]]; cbn [zonalize_levels] in Hin; now apply auto_levels_facts in Hin. }
    pose proof (eqy_gt _ _ _ _ _ Hg pv q (g_nlat g - 1) 0 ltac:(lia) ltac:(lia)) as Q.
    unfold pv in Q at 1. rewrite mget_mat_of in Q by lia. specialize (Q Hq). lra. }
  rewrite (falwa_form _ _ _ _ _ Hg pv Hpv levels "sptrapz" qq yy Hm Eb HL W NE). f_equal.
  apply (list_eq_nth nil); [rewrite map_length, tab_length; apply lat_length|].
  intros i Hi. rewrite map_length in Hi. rewrite lat_length in Hi.
  rewrite (nth_map_lt _ _ _ 0) by (rewrite lat_length; auto). rewrite tab_nth by auto. apply tab_ext. intros j Hj.
  assert (Z : forall k, (k < length yy)%nat ->
    0 <= wave g pv "sptrapz" (nth k qq 0) (nth k yy 0) j / np_cosd (nth k yy 0) <= 0).
  { intros k Hk. rewrite Ey, Eq. rewrite Ey, map_length in Hk. rewrite (nth_map_lt _ _ _ 0) by auto.
    rewrite (sym_zero _ _ _ _ _ Hg pv p P Hp HP eq_refl) by auto. unfold Rdiv. lra. }
  pose proof (interp_range _ _ _ _ _ Hg pv "sptrapz" qq yy j (nth i (g_lat g) 0) 0 0 HL W Hj ltac:(lra) Z) as IR.
  assert (Hx : -90 <= nth i (g_lat g) 0 <= 90) by (apply (lat_poles g); apply nth_In; rewrite lat_length; auto).
  specialize (IR Hx). destruct (eval_linear _ _) as [v|]; [f_equal; lra|]. now destruct IR.
Qed.
Print Assumptions C70_interpolated_partial.

(** On every grid whose longitudes do not close the circle there is a zonally
    symmetric PV field, decreasing southward, and a contour inside its range with
    positive wave activity at all longitudes. *)
Theorem C70_refuted res rs om nt g : mk_grid res rs om nt = Ok g -> ~ is_integer (360 / res) ->
  exists p q r y, (forall i, (S i < g_nlat g)%nat -> p (S i) < p i)
    /\ p (g_nlat g - 1)%nat < q < p 0%nat
    /\ falwa_contours g (mat_of (g_nlat g) (g_nlon g) (fun i _ => p i)) (LArr (q :: nil)) "sptrapz" = Ok (r :: nil, y :: nil)
    /\ length r = g_nlon g /\ Forall (fun x => 0 < x) r.
Proof.
  intros Hg Hint. pose proof (nlat_gt1' _ _ _ _ _ Hg) as N1.
  set (p := fun i => nth i (g_lat g) 0). set (pv := mat_of (g_nlat g) (g_nlon g) (fun i _ => p i)).
  assert (Hpv : shaped (g_nlat g) (g_nlon g) pv) by apply shaped_mat_of.
  assert (Hm : known_method "sptrapz") by now right.
  destruct (background_form _ _ _ _ _ Hg pv Hpv (LArr (0 :: nil)) "sptrapz" Hm ltac:(easy))
      as [qq [yy [Eb [HL [W [Hs [_ NE]]]]]]].
  destruct (Hs eq_refl) as [Eq Ey]. cbn [zonalize_levels] in Eq. cbn [zonalize_levels map] in Ey.
  exists p, 0, (frow g pv "sptrapz" 0 (eqy res rs g pv "sptrapz" 0)), (eqy res rs g pv "sptrapz" 0).
  split; [intros i Hi; now apply (lat_decr _ _ _ _ _ Hg)|]. split.
  { unfold p. rewrite !lat_nth by lia. simpl (INR 0).
    replace (90 + INR (g_nlat g - 1) * (-180 / INR (g_nlat g - 1))) with (-90) by (field; apply not_0_INR; lia). lra. }
  split; [|split].
  - fold pv. rewrite (contours_form _ _ _ _ _ Hg pv Hpv _ "sptrapz" qq yy Hm Eb). now rewrite Eq, Ey.
  - apply tab_length.
  - apply Forall_forall. intros x Hx. apply in_map_iff in Hx. destruct Hx as [j [<- Hj]]. apply in_seq in Hj.
    apply Rdiv_lt_0_compat.
    + apply (lat_field_positive _ _ _ _ _ Hg); auto; lia.
    + apply np_cosd_pos. eapply eqlat_range; eauto.
Qed.
Print Assumptions C70_refuted.

(** ** C71 *)
(** boxcount: the zonal mean of the interpolated local wave activity is the
    interpolated zonal mean, for all PV fields and levels. *)
Theorem C71_boxcount res rs om nt g pv levels : mk_grid res rs om nt = Ok g ->
  shaped (g_nlat g) (g_nlon g) pv -> valid_levels levels ->
  exists f, fawa g pv levels "boxcount" = Ok f /\ mean_falwa g pv levels "boxcount" = Ok (map Some f).
Proof.
  intros Hg Hpv V. assert (Hm : known_method "boxcount") by now left.
  destruct (background_form _ _ _ _ _ Hg pv Hpv levels "boxcount" Hm (valid_levels_ne _ _ _ _ _ Hg _ _ levels _ V))
      as [qq [yy [Eb [HL [W [_ [Hb NE]]]]]]]. specialize (Hb eq_refl).
  assert (MD : forall i k, (i < k)%nat -> (k < length yy)%nat -> nth k yy 0 < nth i yy 0 /\ -90 < nth k yy 0 /\ nth i yy 0 < 90).
  { intros i k Hik Hk. rewrite Hb, midpoints_length, lat_length in Hk. rewrite Hb.
    rewrite !midpoints_nth by (rewrite lat_length; lia). pose proof (nlat_gt1' _ _ _ _ _ Hg) as N1.
    pose proof (lat_decr _ _ _ _ _ Hg i ltac:(lia)). pose proof (lat_decr _ _ _ _ _ Hg k ltac:(lia)).
    pose proof (lat_decreasing g N1 i k Hik ltac:(rewrite ?lat_length; lia)).
    pose proof (lat_decreasing g N1 (S i) (S k) ltac:(lia) ltac:(rewrite ?lat_length; lia)).
    assert (-90 <= nth (S k) (g_lat g) 0) by (apply (lat_poles g); apply nth_In; rewrite lat_length; lia).
    assert (nth i (g_lat g) 0 <= 90) by (apply (lat_poles g); apply nth_In; rewrite lat_length; lia). lra. }
  assert (IN : forall k, (k < length yy)%nat -> -90 < nth k yy 0 < 90).
  { intros k Hk. rewrite Hb, midpoints_length, lat_length in Hk. rewrite Hb, midpoints_nth by (rewrite lat_length; lia).
    pose proof (lat_decr _ _ _ _ _ Hg k ltac:(lia)).
    assert (-90 <= nth (S k) (g_lat g) 0) by (apply (lat_poles g); apply nth_In; rewrite lat_length; lia).
    assert (nth k (g_lat g) 0 <= 90) by (apply (lat_poles g); apply nth_In; rewrite lat_length; lia). lra. }
  apply (means_agree _ _ _ _ _ Hg pv Hpv levels "boxcount" qq yy); auto.
  - intros H. apply (In_nth _ _ 0) in H. destruct H as [k [Hk Ek]]. specialize (IN k Hk). lra.
  - intros i k Hi Hk E. destruct (Nat.lt_trichotomy i k) as [L|[->|L]]; [|reflexivity|].
    + destruct (MD i k L Hk). lra.
    + destruct (MD k i L Hi). lra.
  - intros i Hi E. specialize (IN i Hi). lra.
Qed.
Print Assumptions C71_boxcount.

Lemma sptrapz_agree res rs om nt g pv levels : mk_grid res rs om nt = Ok g ->
  is_integer (360 / res) -> shaped (g_nlat g) (g_nlon g) pv -> valid_levels levels ->
  (forall q, In q (zonalize_levels g (mmin pv) (mmax pv) levels "sptrapz") ->
     exists i j, (i < g_nlat g)%nat /\ (j < g_nlon g)%nat /\ mget pv i j < q) ->
  exists f, fawa g pv levels "sptrapz" = Ok f /\ mean_falwa g pv levels "sptrapz" = Ok (map Some f).
Proof.
  intros Hg Hint Hpv V HL. assert (Hm : known_method "sptrapz") by now right.
  destruct (background_form _ _ _ _ _ Hg pv Hpv levels "sptrapz" Hm (valid_levels_ne _ _ _ _ _ Hg _ _ levels _ V))
      as [qq [yy [Eb [Hlen [W [Hs [_ NE]]]]]]]. destruct (Hs eq_refl) as [Eq Ey]. rewrite <- Eq in Ey, HL.
  assert (EY : forall k, (k < length yy)%nat -> nth k yy 0 = eqy res rs g pv "sptrapz" (nth k qq 0)).
  { intros k Hk. rewrite Ey. now rewrite (nth_map_lt _ _ _ 0) by lia. }
  apply (means_agree _ _ _ _ _ Hg pv Hpv levels "sptrapz" qq yy); auto.
  - intros H. apply (In_nth _ _ 0) in H. destruct H as [k [Hk Ek]].
    destruct (HL (nth k qq 0) ltac:(apply nth_In; lia)) as [i [j [Hi [Hj Hq]]]].
    pose proof (eqy_gt _ _ _ _ _ Hg pv _ i j Hi Hj Hq). rewrite (EY k Hk) in Ek. lra.
  - intros i k Hi Hk E. rewrite E. apply (mean_dup _ _ _ _ _ Hg pv Hint).
    + rewrite <- EY by auto. exact E.
    + now rewrite <- EY.
  - intros i Hi E. rewrite E, frow_zero.
    + rewrite vmean_tab, Rsum_tab_const. unfold Rdiv. ring.
    + intros j Hj. apply (top_zero _ _ _ _ _ Hg); auto. now rewrite <- EY.
Qed.

(** sptrapz with default levels or a number of levels (State.fawa is the case
    LNone) on a grid that closes the circle: the two agree for every PV field
    that is not constant.  Missing: constant PV (refuted below), other grids. *)
Theorem C71_sptrapz_partial res rs om nt g pv lo hi levels : mk_grid res rs om nt = Ok g ->
  is_integer (360 / res) -> shaped (g_nlat g) (g_nlon g) pv -> extremes (g_nlat g) (g_nlon g) pv lo hi -> lo < hi ->
  (levels = LNone \/ exists n, levels = LInt n /\ (0 < n)%Z) ->
  exists f, fawa g pv levels "sptrapz" = Ok f /\ mean_falwa g pv levels "sptrapz" = Ok (map Some f)
    /\ (levels = LNone -> state_fawa g pv = Ok (map Some f)).
Proof.
  intros Hg Hint Hpv X Hlt Hlev.
  destruct (sptrapz_agree _ _ _ _ _ pv levels Hg Hint Hpv) as [f [H1 H2]].
  - destruct Hlev as [->|[n [-> Hn]]]; cbn [valid_levels]; auto.
  - intros q Hq. destruct (mmin_mmax _ _ _ _ _ Hpv X) as [M1 M2]. rewrite M1, M2 in Hq.
    destruct X as [_ [[i [j [Hi [Hj E]]]] _]]. exists i, j. split; [auto|]. split; [auto|]. rewrite E.
    destruct Hlev as [->|[n [-> Hn]]]; cbn [zonalize_levels] in Hq; now apply auto_levels_facts in Hq.
  - exists f. split; [auto|]. split; [auto|]. intros ->. exact H2.
Qed.
Print Assumptions C71_sptrapz_partial.

(** sptrapz with given levels above the smallest PV value, also outside of the
    range of PV and repeated ones *)
Theorem C71_levels_partial res rs om nt g pv lo hi v : mk_grid res rs om nt = Ok g ->
  is_integer (360 / res) -> shaped (g_nlat g) (g_nlon g) pv -> extremes (g_nlat g) (g_nlon g) pv lo hi ->
  v <> nil -> Forall (fun q => lo < q) v ->
  exists f, fawa g pv (LArr v) "sptrapz" = Ok f /\ mean_falwa g pv (LArr v) "sptrapz" = Ok (map Some f).
Proof.
  intros Hg Hint Hpv X Hv Hq. apply (sptrapz_agree _ _ _ _ _ pv (LArr v) Hg Hint Hpv Hv).
  intros q Hin. cbn [zonalize_levels] in Hin. rewrite Forall_forall in Hq. specialize (Hq q Hin).
  destruct X as [_ [[i [j [Hi [Hj E]]]] _]]. exists i, j. split; [auto|]. split; [auto|]. lra.
Qed.
Print Assumptions C71_levels_partial.

(** sptrapz on any grid, if the equivalent latitudes are distinct and not at the poles *)
Theorem C71_distinct_partial res rs om nt g pv levels qq yy : mk_grid res rs om nt = Ok g ->
  shaped (g_nlat g) (g_nlon g) pv -> zonalize_contours g pv levels "sptrapz" = Ok (qq, yy) ->
  NoDup yy -> ~ In 90 yy -> ~ In (-90) yy ->
  exists f, fawa g pv levels "sptrapz" = Ok f /\ mean_falwa g pv levels "sptrapz" = Ok (map Some f).
Proof.
  intros Hg Hpv E ND NN NS. assert (Hm : known_method "sptrapz") by now right.
  assert (Eb : falwa_background g pv levels "sptrapz" = Ok (qq, yy)).
  { unfold falwa_background. rewrite E. reflexivity. }
  destruct (contours_inv _ _ _ _ _ Hg pv Hpv levels "sptrapz" _ yy Hm (contours_form _ _ _ _ _ Hg pv Hpv levels _ qq yy Hm Eb))
    as [qq' [V [Eb' [_ [HL [W [NE _]]]]]]]. assert (qq' = qq) by congruence. subst qq'.
  apply (means_agree _ _ _ _ _ Hg pv Hpv levels "sptrapz" qq yy); auto.
  - intros i k Hi Hk Eik. rewrite NoDup_nth in ND. now rewrite (ND i k Hi Hk Eik).
  - intros i Hi E90. exfalso. apply NN. rewrite <- E90. now apply nth_In.
Qed.
Print Assumptions C71_distinct_partial.

(** Constant PV on a grid that closes the circle: State.fawa is NaN at the south
    pole where diagnostics.fawa is zero. *)
Theorem C71_refuted res rs om nt g c : mk_grid res rs om nt = Ok g -> is_integer (360 / res) ->
  let pv := mat_of (g_nlat g) (g_nlon g) (fun _ _ => c) in
  exists f f', fawa g pv LNone "sptrapz" = Ok f /\ state_fawa g pv = Ok f'
    /\ nth (g_nlat g - 1) f 1 = 0 /\ nth (g_nlat g - 1) f' (Some 0) = None.
Proof.
  intros Hg Hint pv. pose proof (nlat_gt1' _ _ _ _ _ Hg) as N1.
  assert (Hpv : shaped (g_nlat g) (g_nlon g) pv) by apply shaped_mat_of.
  assert (Hm : known_method "sptrapz") by now right.
  destruct (background_form _ _ _ _ _ Hg pv Hpv LNone "sptrapz" Hm (valid_levels_ne _ _ _ _ _ Hg _ _ LNone _ I))
      as [qq [yy [Eb [HL [W [Hs [_ NE]]]]]]].
  destruct (C69_refuted _ _ _ _ _ c Hg Hint) as [f2 [E2 H2]]. fold pv in E2.
  eexists. eexists. split; [apply (fawa_form _ _ _ _ _ Hg pv Hpv LNone "sptrapz" qq yy); auto|].
  split; [unfold state_fawa, mean_falwa; rewrite E2; reflexivity|].
  assert (E90 : nth (g_nlat g - 1) (g_lat g) 0 = -90) by (rewrite lat_nth by lia; field; apply not_0_INR; lia).
  split.
  - rewrite (nth_map_lt _ _ _ 0) by (rewrite lat_length; lia). rewrite E90. rewrite np_south; [reflexivity|].
    rewrite map_length. now apply (frows_length _ _ _ _ _ Hg).
  - assert (L2 : shaped (g_nlat g) (g_nlon g) f2).
    { destruct (C69_defined _ _ _ _ _ pv LNone "sptrapz" Hg Hm Hpv) as [D _].
      destruct (D I) as [_ [f3 [E3 S3]]]. assert (f3 = f2) by congruence. now subst. }
    destruct L2 as [L2 L3].
    rewrite (nth_map_lt _ _ _ nil) by lia. set (r := nth (g_nlat g - 1) f2 nil) in *.
    assert (Lr : length r = g_nlon g) by (rewrite Forall_forall in L3; apply L3, nth_In; lia).
    pose proof (nlon_pos _ _ _ _ _ Hg) as NL. specialize (H2 0%nat NL).
    destruct r as [|x t]; [cbn [length] in Lr; lia|]. cbn [nth] in H2. subst x. reflexivity.
Qed.
Print Assumptions C71_refuted.

(** ** The hypotheses can be met *)
(** PV 1 at the point (1, 0) of the 3 x 4 grid with 90 degree resolution, 0 elsewhere *)
Definition bump : mat := mat_of 3 4 (fun i j => if Nat.eqb (i + 5 * j) 1 then 1 else 0).
Lemma gridA_integer : is_integer (360 / 90).
Proof. exists 4%Z. lra. Qed.
Lemma seven : ~ is_integer (360 / 7).
Proof.
  intros [k E]. assert (E' : IZR (7 * k) = IZR 360) by (rewrite mult_IZR; lra). apply eq_IZR in E'. lia.
Qed.
Example C69_nonvacuous : mk_grid 90 1 0 None = Ok (gridA 1) /\ known_method "sptrapz" /\ known_method "boxcount"
  /\ shaped (g_nlat (gridA 1)) (g_nlon (gridA 1)) bump /\ valid_levels LNone /\ valid_levels (LArr (/ 2 :: nil))
  /\ ~ valid_levels (LInt 0) /\ is_integer (360 / 90)
  /\ exists g pv levels r y, mk_grid 7 1 1 None = Ok g /\ shaped (g_nlat g) (g_nlon g) pv
       /\ falwa_contours g pv levels "sptrapz" = Ok (r :: nil, y :: nil) /\ length r = 51%nat /\ Forall (fun x => 0 < x) r.
Proof.
  split; [apply gridA_ok; lra|]. split; [now right|]. split; [now left|]. split; [apply (shaped_mat_of 3 4)|].
  split; [exact I|]. split; [easy|]. split; [cbn [valid_levels]; lia|]. split; [exact gridA_integer|].
  destruct grid7 as [g [Hg [Hlon _]]]. destruct (C70_refuted _ _ _ _ _ Hg seven) as [p [q [r [y [_ [_ [E [L Q]]]]]]]].
  exists g. eexists. eexists. exists r, y. split; [exact Hg|]. split; [apply shaped_mat_of|]. split; [exact E|].
  split; [now rewrite L|exact Q].
Qed.
Example C70_nonvacuous : mk_grid 90 1 0 None = Ok (gridA 1) /\ is_integer (360 / 90)
  /\ (forall i, (S i < g_nlat (gridA 1))%nat -> - INR (S i) < - INR i)
  /\ (exists rows yy, falwa_contours (gridA 1) (mat_of (g_nlat (gridA 1)) (g_nlon (gridA 1)) (fun i _ => - INR i))
        (LArr (-1 / 2 :: 7 :: nil)) "sptrapz" = Ok (rows, yy))
  /\ (exists g, mk_grid 7 1 1 None = Ok g) /\ ~ is_integer (360 / 7).
Proof.
  assert (Hg : mk_grid 90 1 0 None = Ok (gridA 1)) by (apply gridA_ok; lra).
  split; [exact Hg|]. split; [exact gridA_integer|]. split; [intros i _; rewrite S_INR; lra|]. split.
  - destruct (C69_defined _ _ _ _ _ _ (LArr (-1 / 2 :: 7 :: nil)) "sptrapz" Hg (or_intror eq_refl) (shaped_mat_of 3 4 (fun i _ => - INR i))) as [D _].
    destruct (D ltac:(easy)) as [[rows [yy [E _]]] _]. now exists rows, yy.
  - split; [|exact seven]. destruct grid7 as [g [Hg7 _]]. now exists g.
Qed.
Example C71_nonvacuous : extremes (g_nlat (gridA 1)) (g_nlon (gridA 1)) bump 0 1
  /\ Forall (fun q => 0 < q) (/ 2 :: 7 :: / 2 :: nil)
  /\ exists qq yy, zonalize_contours (gridA 1) bump (LArr (/ 2 :: nil)) "sptrapz" = Ok (qq, yy)
       /\ NoDup yy /\ ~ In 90 yy /\ ~ In (-90) yy.
Proof.
  split; [|split].
  - split; [|split].
    + intros i j Hi Hj. unfold bump. rewrite mget_mat_of by auto. destruct (Nat.eqb _ _); lra.
    + exists 0%nat, 0%nat. cbn. split; [lia|]. split; [lia|]. reflexivity.
    + exists 1%nat, 0%nat. cbn. split; [lia|]. split; [lia|]. reflexivity.
  - repeat constructor; lra.
  - assert (Hg : mk_grid 90 1 0 None = Ok (gridA 1)) by (apply gridA_ok; lra).
    assert (Hpv : shaped (g_nlat (gridA 1)) (g_nlon (gridA 1)) bump) by (apply (shaped_mat_of 3 4)).
    rewrite (zonalize_form _ _ _ _ _ Hg (g_nlon (gridA 1))); auto; [|now right|cbn; lia|easy].
    eexists. eexists. split; [reflexivity|]. cbn [zonalize_levels map].
    change (eqlat1 (gridA 1) _) with (eqy 90 1 (gridA 1) bump "sptrapz" (/ 2)).
    pose proof (eqy_gt _ _ _ _ _ Hg bump (/ 2) 0 0 ltac:(cbn; lia) ltac:(cbn; lia) ltac:(cbn; lra)).
    pose proof (eqy_lt _ _ _ _ _ Hg bump (/ 2) 1 0 ltac:(cbn; lia) ltac:(cbn; lia) ltac:(cbn; lra)).
    split; [repeat constructor; easy|]. cbn [In]. split; lra.
Qed.
