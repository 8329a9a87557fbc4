From Verif Require Export Proofs_Quad Proofs_Zonalize Proofs_Interp Spec_Region Spec_Quad Spec_Grid.
From Coquelicot Require Import Coquelicot.
From Coq Require Import Lia Lra.
Open Scope R_scope.
Ltac reqdec := repeat match goal with
  | |- context [Reqb ?a ?b] =>
      first [ replace (Reqb a b) with true by (symmetry; apply Reqb_true; lra)
            | replace (Reqb a b) with false by (symmetry; apply Reqb_false; lra) ] end.

Section Box.
Variables (res rs om : R) (nt : option Z) (g : grid).
Hypothesis Hg : mk_grid res rs om nt = Ok g.
Let F := mk_grid_facts _ _ _ _ _ Hg.

Lemma nearest_cell (edge : nat -> R) i t : (i < g_nlat g)%nat ->
  (forall i, (0 < i < g_nlat g)%nat -> edge i = (nth (i - 1) (g_phi g) 0 + nth i (g_phi g) 0) / 2) ->
  edge (S i) < t < edge i ->
  forall k, (k < g_nlat g)%nat -> k <> i -> Rabs (t - nth i (g_phi g) 0) < Rabs (t - nth k (g_phi g) 0).
Proof.
  intros Hi He Ht k Hk Hne. pose proof (nlat_gt1' _ _ _ _ _ Hg) as N1.
  pose proof (phi_decreasing g N1) as D. unfold strictly_decreasing in D. rewrite phi_length in D.
  destruct (lt_dec k i).
  - rewrite (He i ltac:(lia)) in Ht.
    assert (nth (i - 1) (g_phi g) 0 <= nth k (g_phi g) 0).
    { destruct (Nat.eq_dec k (i - 1)); [subst; lra|]. left. apply D; lia. }
    pose proof (D (i - 1)%nat i ltac:(lia) ltac:(lia)).
    unfold Rabs. destruct (Rcase_abs _); destruct (Rcase_abs _); lra.
  - rewrite (He (S i) ltac:(lia)) in Ht. replace (S i - 1)%nat with i in Ht by lia.
    assert (nth k (g_phi g) 0 <= nth (S i) (g_phi g) 0).
    { destruct (Nat.eq_dec k (S i)); [subst; lra|]. left. apply D; lia. }
    pose proof (D i (S i) ltac:(lia) ltac:(lia)).
    unfold Rabs. destruct (Rcase_abs _); destruct (Rcase_abs _); lra.
Qed.

Lemma box_is_RInt y z Y Z : nearest_step (g_phi g) (tab (g_nlat g) y) Y ->
  nearest_step (g_phi g) (tab (g_nlat g) z) Z ->
  is_RInt (masked rs Y Z) (- (PI / 2)) (PI / 2) (cq g "boxcount" y z).
Proof.
  intros HY HZ. destruct (cell_areas_lemma _ _ _ _ _ Hg) as [_ [_ [_ [[edge [E0 [En [Ei Hc]]]] _]]]].
  pose proof (rs_pos _ _ _ _ _ Hg) as Hr. pose proof (dlam_gpos _ _ _ _ _ Hg) as Hd.
  assert (Ed : deg2rad res = g_dlam g) by (unfold g_dlam, g_dlon; now rewrite (gf_res _ _ _ _ F)).
  set (c := fun i => if Rleb 0 (z i) then rs * y i * (sin (edge i) - sin (edge (S i))) else 0).
  assert (EQ : cq g "boxcount" y z = Rsum (tab (g_nlat g) c)).
  { unfold cq. cbn [is_boxcount String.eqb Ascii.eqb Bool.eqb]. 
    replace (is_boxcount "boxcount") with true by reflexivity.
    replace (tab (g_nlat g) (fun i => if Rleb 0 (z i) then _ else 0))
      with (tab (g_nlat g) (fun i => rs * g_dlam g * c i)).
    - rewrite Rsum_tab_scal, (gf_rs _ _ _ _ F). rewrite (gf_rs _ _ _ _ F) in Hr. field. lra.
    - apply tab_ext. intros i Hi. unfold c. destruct (Rleb 0 (z i)); [|ring].
      rewrite (proj2 (Hc i Hi)), Ed. unfold sector_area. ring. }
  rewrite EQ, <- En, <- E0.
  assert (G : forall n, (n <= g_nlat g)%nat -> is_RInt (masked rs Y Z) (edge n) (edge 0%nat) (Rsum (tab n c))).
  { induction n as [|n IH]; intros Hn.
    - apply (@is_RInt_point R_NormedModule).
    - rewrite tab_snoc, Rsum_app. replace (Rsum (c n :: nil)) with (c n) by (unfold Rsum; simpl; ring). rewrite Rplus_comm.
      apply is_RInt_ChaslesR with (edge n); [|apply IH; lia].
      destruct (Hc n ltac:(lia)) as [Hlt _].
      assert (V : forall t, edge (S n) < t < edge n -> Y t = y n /\ Z t = z n).
      { intros t Ht. pose proof (nearest_cell edge n t ltac:(lia) Ei Ht) as NC.
        rewrite (HY n t), (HZ n t) by (rewrite phi_length; auto; lia). now rewrite !tab_nth by lia. }
      unfold c. destruct (Rleb 0 (z n)) eqn:Ez.
      + apply Rleb_true in Ez. eapply is_RInt_ext; [|apply (is_RInt_cos_scal (rs * y n))].
        intros t Ht. rewrite Rmin_left, Rmax_right in Ht by lra. destruct (V t Ht) as [V1 V2].
        simpl. unfold masked. rewrite V1, V2. destruct (Rle_dec 0 (z n)); [reflexivity|lra].
      + apply Rleb_false in Ez. eapply is_RInt_ext; [|apply is_RInt_zero].
        intros t Ht. rewrite Rmin_left, Rmax_right in Ht by lra. destruct (V t Ht) as [V1 V2].
        simpl. unfold masked. rewrite V2. destruct (Rle_dec 0 (z n)); [lra|reflexivity]. }
  apply G. lia.
Qed.

Lemma boxcount_exact nc y z : (nc <= g_nlon g)%nat -> shaped (g_nlat g) nc y -> shaped (g_nlat g) nc z ->
  exists q, quad_meridional g (A2 y) (Some z) "boxcount" = Ok q /\ length q = nc
    /\ forall j, (j < nc)%nat -> forall Y Z,
         nearest_step (g_phi g) (mcol y j) Y -> nearest_step (g_phi g) (mcol z j) Z ->
         is_RInt (masked rs Y Z) (- (PI / 2)) (PI / 2) (nth j q 0).
Proof.
  intros Hc Hy Hz. eexists. pose proof (nlat_pos _ _ _ _ _ Hg). rewrite (quad_meridional_form g _ nc) by (auto; now left).
  split; [reflexivity|]. split; [apply tab_length|]. intros j Hj Y Z HY HZ. rewrite tab_nth by auto.
  rewrite (mcol_tab (g_nlat g) nc) in HY, HZ by auto. now apply box_is_RInt.
Qed.

Lemma nearest_exists y : exists Y, nearest_step (g_phi g) y Y.
Proof.
  set (D := fun t i => forall k, (k < length (g_phi g))%nat -> k <> i -> Rabs (t - nth i (g_phi g) 0) < Rabs (t - nth k (g_phi g) 0)).
  assert (UQ : forall t i j, (i < length (g_phi g))%nat -> (j < length (g_phi g))%nat -> D t i -> D t j -> i = j).
  { intros t i j Hi Hj Di Dj. destruct (Nat.eq_dec i j) as [|Hne]; [auto|].
    pose proof (Di j Hj ltac:(auto)). pose proof (Dj i Hi Hne). lra. }
  set (strict := fun t i => forallb (fun k => Nat.eqb k i || Rltb (Rabs (t - nth i (g_phi g) 0)) (Rabs (t - nth k (g_phi g) 0))) (seq 0 (length (g_phi g)))).
  assert (SD : forall t i, strict t i = true <-> D t i).
  { intros t i. unfold strict. rewrite forallb_forall. split.
    - intros H k Hk Hne. specialize (H k ltac:(apply in_seq; lia)).
      apply orb_prop in H. destruct H as [H|H]; [apply Nat.eqb_eq in H; lia|now apply Rltb_true].
    - intros H k Hk. apply in_seq in Hk. destruct (Nat.eqb_spec k i); [reflexivity|]. simpl.
      apply Rltb_true. apply H; lia. }
  exists (fun t => match find (strict t) (seq 0 (length (g_phi g))) with Some i => nth i y 0 | None => 0 end).
  intros i t Hi Hd. destruct (find (strict t) _) as [j|] eqn:E.
  - apply find_some in E. destruct E as [E1 E2]. apply in_seq in E1. apply SD in E2.
    now rewrite (UQ t i j Hi ltac:(lia) Hd E2).
  - apply find_none with (x := i) in E; [|apply in_seq; lia]. apply SD in Hd. congruence.
Qed.
End Box.

(** ** C16, whole calls *)
Lemma forallb_bounds lat field pole xs : length field = length lat -> within_poles lat -> within_poles xs ->
  forallb (in_bounds (padded_nodes lat field pole)) xs = true.
Proof.
  intros Hl Hr Hx. apply forallb_forall. intros x Hin. apply L_in_bounds; auto.
Qed.

Lemma interp_1d_lemma lat field pole xs : length field = length lat -> within_poles lat -> NoDup lat -> within_poles xs ->
  exists v, interp1d_1d field lat pole xs = Ok v /\ length v = length xs
    /\ forall k, (k < length xs)%nat ->
         no_overshoot lat field pole (nth k v 0)
         /\ (~ In 90 lat -> ~ In (-90) lat -> on_line lat field pole (nth k xs 0) (nth k v 0))
         /\ (forall i, (i < length lat)%nat -> nth i lat 0 = nth k xs 0 -> -90 < nth k xs 0 ->
               nth k v 0 = nth i field 0)
         /\ (nth k xs 0 = 90 -> ~ In 90 lat -> nth k v 0 = fst pole)
         /\ (nth k xs 0 = -90 -> nth k v 0 = snd pole).
Proof.
  intros Hl Hr Hn Hx. exists (map (eval_np (padded_nodes lat field pole)) xs).
  unfold interp1d_1d. rewrite Hl, Nat.eqb_refl, forallb_bounds by auto. cbn [negb].
  split; [reflexivity|]. split; [apply map_length|]. intros k Hk.
  rewrite (nth_map_lt _ _ _ 0) by auto.
  assert (Hxk : -90 <= nth k xs 0 <= 90) by (apply Hx; now apply nth_In).
  split; [now apply np_bounds|]. split; [intros; now apply np_on_line|].
  split; [|split].
  - intros i Hi E Hm. rewrite <- E in *. now apply np_data.
  - intros E Hni. rewrite E. now apply np_north.
  - intros E. rewrite E. now apply np_south.
Qed.

Lemma interp_2d_lemma nc lat field pole xs : (0 < length lat)%nat -> shaped (length lat) nc field -> within_poles lat -> NoDup lat -> within_poles xs ->
  exists v, interp1d_2d field lat pole xs = Ok v /\ length v = length xs
    /\ forall k, (k < length xs)%nat -> length (nth k v []) = nc
    /\ forall j, (j < nc)%nat ->
       let x := nth k xs 0 in let w := nth j (nth k v []) None in
         (w = None <-> x = -90 /\ In (-90) lat)
         /\ (forall r, w = Some r -> no_overshoot lat (mcol field j) pole r
              /\ (~ In 90 lat -> ~ In (-90) lat -> on_line lat (mcol field j) pole x r))
         /\ (x = 90 -> w = Some (fst pole))
         /\ (x = -90 -> ~ In (-90) lat -> w = Some (snd pole)).
Proof.
  intros H0 Hf Hr Hn Hx.
  exists (map (fun x => tab nc (fun j => eval_linear (padded_nodes lat (mcol field j) pole) x)) xs).
  unfold interp1d_2d. rewrite (shaped_ncols (length lat) nc) by auto.
  rewrite (proj1 Hf), Nat.eqb_refl, forallb_bounds by auto. cbn [negb].
  split; [reflexivity|]. split; [apply map_length|]. intros k Hk.
  rewrite (nth_map_lt _ _ _ 0) by auto. split; [apply tab_length|]. intros j Hj. cbv zeta.
  rewrite tab_nth by auto.
  assert (Hl : length (mcol field j) = length lat) by (rewrite mcol_length; apply Hf).
  assert (Hxk : -90 <= nth k xs 0 <= 90) by (apply Hx; now apply nth_In).
  set (x := nth k xs 0) in *.
  split; [|split; [|split]].
  - destruct (Req_dec x (-90)) as [E|E].
    + rewrite E, lin_south by auto. destruct (in_dec Req_EM_T (-90) lat); split; intros X; try easy; now destruct X.
    + destruct (lin_defined lat (mcol field j) pole Hl x ltac:(lra)) as [w [-> _]].
      split; intros X; [discriminate|]. now destruct X.
  - intros r Er. split.
    + destruct (Req_dec x (-90)) as [E|E].
      * rewrite E, lin_south in Er by auto. destruct (in_dec Req_EM_T (-90) lat); [discriminate|].
        injection Er as <-. intros lo hi H. apply (H (-90, snd pole)). apply node_s.
      * destruct (lin_defined lat (mcol field j) pole Hl x ltac:(lra)) as [w [Ew Hw]].
        rewrite Er in Ew. injection Ew as <-. exact Hw.
    + intros H1 H2. destruct (lin_on_line lat (mcol field j) pole Hl Hr Hn H1 H2 x Hxk) as [w [Ew Hw]].
      rewrite Er in Ew. injection Ew as <-. exact Hw.
  - intros E. rewrite E. now apply lin_north.
  - intros E Hni. rewrite E, lin_south by auto. now destruct (in_dec Req_EM_T (-90) lat).
Qed.

Lemma interp_refuted_lemma : exists g,
  mk_grid 90 1 0 None = Ok g
  /\ interpolate_meridional_1d g (1 :: nil) (-90 :: nil) (0, 0) = Ok (0 :: 0 :: 0 :: nil)
  /\ interpolate_meridional_2d g ((1 :: nil) :: nil) (-90 :: nil) (0, 0)
     = Ok ((Some 0 :: nil) :: (Some 0 :: nil) :: (None :: nil) :: nil).
Proof.
  exists (gridA 1). split; [apply gridA_ok; lra|].
  unfold interpolate_meridional_1d, interpolate_meridional_2d. rewrite gridA_lat.
  assert (HR : within_poles (-90 :: nil)) by (intros x [<-|[]]; lra).
  assert (HX : within_poles (90 :: 0 :: -90 :: nil)) by (intros x Hx; simpl in Hx; lra).
  assert (HN : NoDup (-90 :: nil)) by (constructor; [easy|constructor]).
  assert (S : padded_nodes (-90 :: nil) (1 :: nil) (0, 0) = (-90, 1) :: (-90, 0) :: (90, 0) :: nil).
  { unfold padded_nodes. repeat (progress cbn; rdec). reflexivity. }
  split.
  - unfold interp1d_1d. cbn [length Nat.eqb negb]. rewrite forallb_bounds by auto. rewrite S. f_equal.
    cbn [map]. unfold eval_np, count_if. cbn [map fst]. cbn [filter]. rdec. cbn. rdec. reqdec. unfold line_through. cbn [fst snd].
    listR.
  - unfold interp1d_2d. cbn [length Nat.eqb negb]. rewrite forallb_bounds by auto.
    cbn [map ncols hd length tab seq mcol nth]. f_equal.
    replace (padded_nodes (-90 :: nil) (map (fun r => nth 0 r 0) ((1 :: nil) :: nil)) (0, 0)) with ((-90, 1) :: (-90, 0) :: (90, 0) :: nil) by (symmetry; exact S).
    unfold eval_linear, count_if. cbn [map fst filter]. rdec. cbn. rdec. reqdec. unfold line_through. cbn [fst snd].
    repeat (progress cbn; rdec; reqdec). match goal with |- ?l = _ => match l with ((Some ?a :: nil) :: (Some ?b :: nil) :: _) => replace a with 0 by field; replace b with 0 by field end end. reflexivity.
Qed.

(** ** remaining whole-call lemmas and examples *)
Lemma surface_refuted_lemma : exists res rs om g, mk_grid res rs om None = Ok g
  /\ forall m, known_method m -> exists a,
       quad g (A2 (mat_of (g_nlat g) (g_nlon g) (fun _ _ => 1))) None m = Ok a
       /\ a < 4 * PI * (rs * rs).
Proof.
  destruct grid7 as [g [Hg [Hlon _]]]. exists 7, 1, 1, g. split; [exact Hg|].
  intros m Hm. eexists. split; [apply (quad_const _ _ _ _ _ Hg m 1 Hm)|].
  rewrite Hlon. rewrite (INR_IZR_INZ 51). simpl. pose proof PI_RGT_0. nra.
Qed.

Lemma eqlat_lemma : forall res rs om nt g, mk_grid res rs om nt = Ok g ->
  forall areas, exists y, equivalent_latitude g (AArr areas) = Ok y /\ length y = length areas
  /\ (forall k, (k < length areas)%nat ->
        -90 <= nth k y 0 <= 90
        /\ (0 <= nth k areas 0 <= 4 * PI * (rs * rs) -> cap_area rs (deg2rad (nth k y 0)) = nth k areas 0)
        /\ (nth k areas 0 <= 0 -> nth k y 0 = 90)
        /\ (4 * PI * (rs * rs) <= nth k areas 0 -> nth k y 0 = -90))
  /\ (forall k l, (k < length areas)%nat -> (l < length areas)%nat ->
        nth k areas 0 <= nth l areas 0 -> nth l y 0 <= nth k y 0).
Proof.
  intros res rs om nt g Hg areas. eexists. split; [reflexivity|]. split; [apply map_length|]. split.
  - intros k Hk. rewrite (nth_map_lt _ _ _ 0) by auto.
    split; [eapply eqlat_range; eauto|]. split; [intros; now apply (eqlat_cap _ _ _ _ _ Hg)|].
    apply (eqlat_clamp _ _ _ _ _ Hg).
  - intros k l Hk Hl H. rewrite !(nth_map_lt _ _ _ 0) by auto. now apply (eqlat_decr _ _ _ _ _ Hg).
Qed.

Lemma eqlat_example : exists g, mk_grid 90 1 0 None = Ok g
  /\ equivalent_latitude g (AArr (-3 :: 2 * PI :: 100 :: nil)) = Ok (90 :: 0 :: -90 :: nil).
Proof.
  exists (gridA 1). assert (Hg := gridA_ok 1 ltac:(lra)). split; [exact Hg|].
  cbn [equivalent_latitude map]. f_equal. pose proof PI_RGT_0. pose proof PI_4.
  apply cons_eq; [apply (eqlat_clamp _ _ _ _ _ Hg); lra|]. apply cons_eq.
  - rewrite (eqlat_inside _ _ _ _ _ Hg) by lra. replace (1 - / 2 * (2 * PI) / PI / (1 * 1)) with 0 by (field; lra).
    rewrite asin_0. unfold rad2deg. field. lra.
  - apply cons_eq; [|reflexivity]. apply (eqlat_clamp _ _ _ _ _ Hg). lra.
Qed.

Lemma quad_example : exists g y z, mk_grid 90 1 0 None = Ok g
  /\ y = mat_of 3 1 (fun _ _ => 1) /\ z = mat_of 3 1 (fun i _ => 1 - INR i)
  /\ shaped (g_nlat g) 1 y /\ shaped (g_nlat g) 1 z
  /\ quad_meridional g (A2 y) (Some z) "sptrapz" = Ok (1 :: nil).
Proof.
  exists (gridA 1). eexists. eexists. split; [apply gridA_ok; lra|].
  split; [reflexivity|]. split; [reflexivity|]. split; [apply shaped_mat_of|]. split; [apply shaped_mat_of|].
  rewrite (quad_meridional_form (gridA 1) _ 1); [|now right|simpl; lia|simpl; lia|apply shaped_mat_of|apply shaped_mat_of].
  f_equal. apply cons_eq; [|reflexivity]. unfold cq. replace (is_boxcount "sptrapz") with false by reflexivity.
  unfold sg, seg_trapz, g_phi. rewrite gridA_lat. cbn [map]. cbn [g_nlat gridA]. 
  pose proof PI_RGT_0. cbn. rdec. cbn.
  replace (deg2rad 90) with (PI / 2) by (unfold deg2rad; field).
  replace (deg2rad (-90)) with (- (PI / 2)) by (unfold deg2rad; field).
  replace (deg2rad 0) with 0 by (unfold deg2rad; field).
  replace (- (PI / 2) - (1 - (1 + 1)) / (1 - (1 + 1) - (1 - 1)) * (- (PI / 2) - 0)) with 0 by field.
  rewrite sin_0, sin_PI2, cos_PI2, cos_0. field. lra.
Qed.

Lemma interp_example : within_poles (30 :: 80 :: -20 :: nil) /\ NoDup (30 :: 80 :: -20 :: nil)
  /\ interp1d_1d (5 :: 7 :: 9 :: nil) (30 :: 80 :: -20 :: nil) (0, 0) (30 :: 5 :: nil) = Ok (5 :: 7 :: nil).
Proof.
  assert (A : within_poles (30 :: 80 :: -20 :: nil)) by (intros x Hx; simpl in Hx; lra).
  assert (B : NoDup (30 :: 80 :: -20 :: nil)).
  { repeat constructor; simpl; lra. }
  split; [exact A|]. split; [exact B|].
  assert (S : padded_nodes (30 :: 80 :: -20 :: nil) (5 :: 7 :: 9 :: nil) (0, 0)
    = (-90, 0) :: (-20, 9) :: (30, 5) :: (80, 7) :: (90, 0) :: nil).
  { unfold padded_nodes. repeat (progress cbn; rdec). reflexivity. }
  unfold interp1d_1d. cbn [length Nat.eqb negb]. rewrite forallb_bounds by (auto; intros x Hx; simpl in Hx; lra).
  rewrite S. f_equal. cbn [map]. unfold eval_np, count_if. cbn [map fst filter]. rdec. cbn. reqdec.
  unfold line_through. cbn [fst snd]. listR.
Qed.
