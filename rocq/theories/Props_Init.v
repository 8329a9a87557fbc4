(** Initial states (C76, C77). *)
From Coq Require Export String.
From Verif Require Import Base Model_Grid Model_Time Model_Spectral Model_State Model_Init Model_Region.
From Verif Require Import Spec_Grid Spec_Instance Proofs_Base Proofs_Grid Proofs_Instance.
From Verif Require Import Model_Region.
From Coq Require Import List Lia Lra.
Open Scope R_scope.

Lemma reshape_repeat nr nc v : length v = nr -> np_reshape nr nc (np_repeat v nc) = mat_of nr nc (fun i _ => nth i v 0).
Proof.
  intros <-. unfold mat_of. induction v as [|x v IH]; [reflexivity|].
  cbn [length np_reshape np_repeat map concat]. rewrite firstn_app, repeat_length, Nat.sub_diag, firstn_all2, skipn_app, repeat_length, Nat.sub_diag, skipn_all2 by (rewrite repeat_length; lia).
  cbn [firstn skipn app]. rewrite app_nil_r. unfold tab at 1. cbn [seq map nth]. f_equal.
  - clear. unfold tab. generalize 0%nat. induction nc as [|nc IH]; intros k; cbn; [reflexivity|]. f_equal. apply IH.
  - fold (np_repeat v nc). rewrite IH. unfold tab at 1. rewrite <- seq_shift, map_map. reflexivity.
Qed.
Lemma zeros_like_shaped nr nc m : shaped nr nc m -> np_zeros_like m = mat_of nr nc (fun _ _ => 0).
Proof.
  intros H. apply (mat_ext nr nc); [now apply shaped_mmap|apply shaped_mat_of|]. intros i j Hi Hj.
  unfold np_zeros_like. now rewrite (mget_mmap nr nc), mget_mat_of.
Qed.

(** C76 *)
Theorem C76_wind_profile : forall K T g (time : pyval K) u, length u = g_nlat g ->
  zonally_symmetric T g time (Some (A1 u)) None =
  state_from_wind T g time (mat_of (g_nlat g) (g_nlon g) (fun i _ => nth i u 0)) (mat_of (g_nlat g) (g_nlon g) (fun _ _ => 0)).
Proof.
  intros K T g time u L. unfold zonally_symmetric, passert. rewrite (proj2 (Nat.eqb_eq _ _) L). cbv zeta.
  rewrite reshape_repeat by exact L. f_equal. apply zeros_like_shaped, shaped_mat_of.
Qed.
Print Assumptions C76_wind_profile.

Theorem C76_pv_profile : forall K T g (time : pyval K) pv, length pv = g_nlat g ->
  zonally_symmetric T g time None (Some (A1 pv)) =
  state_init T g time (Some (mat_of (g_nlat g) (g_nlon g) (fun i _ => nth i pv 0))) None.
Proof.
  intros K T g time u L. unfold zonally_symmetric, passert. rewrite (proj2 (Nat.eqb_eq _ _) L). now rewrite reshape_repeat by exact L.
Qed.
Print Assumptions C76_pv_profile.

Theorem C76_rejected : forall K T g (time : pyval K) a,
  (forall x, a = A1 x -> length x <> g_nlat g) ->
  zonally_symmetric T g time (Some a) None = Err AssertionError /\ zonally_symmetric T g time None (Some a) = Err AssertionError.
Proof.
  intros K T g time a H. unfold zonally_symmetric, passert. destruct a as [x|m|]; auto.
  destruct (Nat.eqb_spec (length x) (g_nlat g)) as [E|]; [|auto]. now destruct (H x eq_refl).
Qed.
Print Assumptions C76_rejected.

Theorem C76_both_or_neither : forall K T g (time : pyval K) a b,
  zonally_symmetric T g time (Some a) (Some b) = Err ValueError /\ zonally_symmetric T g time None None = Err ValueError.
Proof. auto. Qed.
Print Assumptions C76_both_or_neither.

Example C76_example : exists s,
  zonally_symmetric d1_family (d1_grid 1 1) (@VNum numR 0) None (Some (A1 [3; 2; 1])) = Ok s
  /\ length [3; 2; 1] = g_nlat (d1_grid 1 1)
  /\ mat_of 3 4 (fun i _ => nth i [3; 2; 1] 0) = [[3; 3; 3; 3]; [2; 2; 2; 2]; [1; 1; 1; 1]].
Proof. eexists. split; [rewrite C76_pv_profile by reflexivity; reflexivity|]. split; reflexivity. Qed.

(** C77.  [zonal_wind g u st time s]: the state is built from the zonal wind u(i) at
    latitude i, the same at every longitude, and no meridional wind. *)
Definition built_from {K} (T : sphfam) (g : grid) (time : pyval K) (u : nat -> R) (r : res (state K)) : Prop :=
  r = state_from_wind T g time (mat_of (g_nlat g) (g_nlon g) (fun i _ => u i)) (mat_of (g_nlat g) (g_nlon g) (fun _ _ => 0)).
Lemma phi2_shaped g : shaped (g_nlat g) (g_nlon g) (g_phi2 g).
Proof.
  split; [unfold g_phi2, g_phi; now rewrite !map_length, lat_length|].
  apply Forall_forall. intros r Hr. apply in_map_iff in Hr. destruct Hr as [y [<- _]]. unfold g_lam. now rewrite !map_length, lon_length.
Qed.
Lemma phi2_get g i j : (i < g_nlat g)%nat -> (j < g_nlon g)%nat -> mget (g_phi2 g) i j = deg2rad (nth i (g_lat g) 0).
Proof.
  intros Hi Hj. unfold mget, g_phi2. rewrite (nth_map_lt _ _ i 0) by (rewrite phi_length; exact Hi).
  rewrite (nth_map_lt _ _ j 0) by (rewrite lam_length; exact Hj). now apply phi_nth.
Qed.
Lemma built_mmap {K} T g (time : pyval K) f m (u : nat -> R) : shaped (g_nlat g) (g_nlon g) m ->
  (forall i j, (i < g_nlat g)%nat -> (j < g_nlon g)%nat -> f (mget m i j) = u i) ->
  built_from T g time u (state_from_wind T g time (mmap f m) (np_zeros_like (mmap f m))).
Proof.
  intros S H. unfold built_from. rewrite (zeros_like_shaped (g_nlat g) (g_nlon g)) by now apply shaped_mmap. f_equal.
  apply (mat_ext (g_nlat g) (g_nlon g)); [now apply shaped_mmap|apply shaped_mat_of|]. intros i j Hi Hj.
  rewrite (mget_mmap (g_nlat g) (g_nlon g)), mget_mat_of by auto. now apply H.
Qed.
Lemma pole_rows res rs om nt g : mk_grid res rs om nt = Ok g ->
  nth 0 (g_lat g) 0 = 90 /\ nth (g_nlat g - 1) (g_lat g) 0 = -90.
Proof.
  intros Hg. pose proof (mk_grid_facts _ _ _ _ _ Hg) as F. pose proof (gf_nlat3 _ _ _ _ F).
  assert (INR (g_nlat g - 1) <> 0) by (apply not_0_INR; lia). split; rewrite lat_nth by lia.
  - cbn. lra.
  - field. lra.
Qed.

Theorem C77_solid_body_rotation : forall K T res rs om nt g, mk_grid res rs om nt = Ok g -> forall (time : pyval K) amplitude,
  exists u, built_from T g time u (solid_body_rotation T g time amplitude)
  /\ u 0%nat = 0 /\ u (g_nlat g - 1)%nat = 0
  /\ (forall i, (i < g_nlat g)%nat -> Rabs (u i) <= Rabs amplitude)
  /\ (forall i, (i < g_nlat g)%nat -> nth i (g_lat g) 0 = 0 -> u i = amplitude)
  /\ forall i, (i < g_nlat g)%nat -> amplitude <> 0 -> Rabs (u i) = Rabs amplitude -> nth i (g_lat g) 0 = 0.
Proof.
  intros K T res rs om nt g Hg time a. exists (fun i => a * cos (deg2rad (nth i (g_lat g) 0))).
  destruct (pole_rows _ _ _ _ _ Hg) as [P0 P1]. split.
  { apply built_mmap; [apply phi2_shaped|]. intros i j Hi Hj. now rewrite phi2_get. }
  split; [rewrite P0; replace (deg2rad 90) with (PI / 2) by (unfold deg2rad; lra); rewrite cos_PI2; ring|].
  split; [rewrite P1; replace (deg2rad (-90)) with (- (PI / 2)) by (unfold deg2rad; lra); rewrite cos_neg, cos_PI2; ring|].
  split; [|split].
  - intros i _. rewrite Rabs_mult. rewrite <- (Rmult_1_r (Rabs a)) at 2. apply Rmult_le_compat_l; [apply Rabs_pos|].
    apply Rabs_le. apply COS_bound.
  - intros i _ ->. unfold deg2rad. replace (0 * PI / 180) with 0 by lra. rewrite cos_0. ring.
  - intros i Hi Na E. rewrite Rabs_mult in E. assert (Ra : Rabs a <> 0) by now apply Rabs_no_R0.
    assert (C : Rabs (cos (deg2rad (nth i (g_lat g) 0))) = 1).
    { apply (Rmult_eq_reg_l (Rabs a)); [lra|exact Ra]. }
    pose proof (mk_grid_facts _ _ _ _ _ Hg) as F. pose proof (gf_nlat3 _ _ _ _ F).
    assert (B : -90 <= nth i (g_lat g) 0 <= 90).
    { rewrite lat_nth by exact Hi. assert (0 < INR (g_nlat g - 1)) by (apply lt_0_INR; lia).
      assert (0 <= INR i <= INR (g_nlat g - 1)) by (split; [apply pos_INR|apply le_INR; lia]).
      replace (90 + INR i * (-180 / INR (g_nlat g - 1))) with (90 - 180 * (INR i / INR (g_nlat g - 1))) by (field; lra).
      assert (0 <= INR i / INR (g_nlat g - 1) <= 1); [|lra]. split; [apply Rmult_le_pos; [lra|]; left; now apply Rinv_0_lt_compat|].
      apply Rmult_le_reg_r with (INR (g_nlat g - 1)); [assumption|]. unfold Rdiv. rewrite Rmult_assoc, Rinv_l by lra. lra. }
    set (y := nth i (g_lat g) 0) in *. clearbody y. pose proof PI_RGT_0 as PP.
    assert (B' : - (PI / 2) <= deg2rad y <= PI / 2) by (unfold deg2rad; split; nra).
    assert (S : sin (deg2rad y) = 0).
    { pose proof (sin2_cos2 (deg2rad y)) as Q. unfold Rsqr in Q. assert (cos (deg2rad y) * cos (deg2rad y) = 1).
      { destruct (Rcase_abs (cos (deg2rad y))) as [c|c]; [rewrite Rabs_left in C by exact c|rewrite Rabs_right in C by exact c]; nra. }
      assert (sin (deg2rad y) * sin (deg2rad y) = 0) by lra. now apply Rmult_integral in H1 as [|]. }
    destruct (Rtotal_order (deg2rad y) 0) as [L|[E0|L]].
    + pose proof (sin_lt_0_var (deg2rad y) ltac:(lra) L). lra.
    + unfold deg2rad in E0. nra.
    + pose proof (sin_gt_0 (deg2rad y) L ltac:(lra)). lra.
Qed.
Print Assumptions C77_solid_body_rotation.

Theorem C77_gaussian_jet : forall K T res rs om nt g, mk_grid res rs om nt = Ok g -> forall (time : pyval K) amplitude center stdev,
  (stdev = 0 -> ~ In center (g_lat g)) ->
  exists u, built_from T g time u (gaussian_jet T g time amplitude center stdev)
  /\ u 0%nat = 0 /\ u (g_nlat g - 1)%nat = 0
  /\ (stdev <> 0 -> exists alpha beta, forall i, (i < g_nlat g)%nat ->
       u i = amplitude * exp (- Rsqr ((nth i (g_lat g) 0 - center) / stdev) / 2) - (alpha + beta * nth i (g_lat g) 0)).
Proof.
  intros K T res rs om nt g Hg time a c s Hs. destruct (pole_rows _ _ _ _ _ Hg) as [P0 P1].
  pose proof (mk_grid_facts _ _ _ _ _ Hg) as F. pose proof (gf_nlat3 _ _ _ _ F) as N3. pose proof (gf_nlon4 _ _ _ _ F) as N4.
  unfold gaussian_jet. destruct (Req_EM_T s 0) as [E|N].
  - destruct (existsb _ (g_lat g)) eqn:X.
    + apply existsb_exists in X. destruct X as [y [Hy E2]]. apply Reqb_true in E2. subst y. now destruct (Hs E).
    + exists (fun _ => 0). split; [|repeat split; auto; contradiction]. apply built_mmap; [apply lat2_shaped|]. auto.
  - set (b := fun lat => a * exp (- (1 / 2) * (lat - c) ^ 2 / s ^ 2)). cbv zeta.
    assert (G : forall i j, (i < g_nlat g)%nat -> (j < g_nlon g)%nat -> mget (mmap b (g_lat2 g)) i j = b (nth i (g_lat g) 0)).
    { intros i j Hi Hj. rewrite (mget_mmap (g_nlat g) (g_nlon g)) by (auto; apply lat2_shaped). now rewrite lat2_get. }
    rewrite !G by lia. rewrite P0, P1.
    exists (fun i => b (nth i (g_lat g) 0) - 1 / 2 * (b (-90) + b 90) + (b (-90) - b 90) * nth i (g_lat g) 0 / 180).
    split; [|split; [rewrite P0; field|split; [rewrite P1; field|]]].
    2:{ intros _. exists (1 / 2 * (b (-90) + b 90)), (- (b (-90) - b 90) / 180). intros i Hi. set (y := nth i (g_lat g) 0).
        replace (exp (- Rsqr ((y - c) / s) / 2)) with (exp (- (1 / 2) * (y - c) ^ 2 / s ^ 2)); [fold (b y); field|].
        f_equal. unfold Rsqr. field. exact N. }
    unfold built_from.
    assert (S : shaped (g_nlat g) (g_nlon g) (map2 (map2 (fun x lat => x - 1 / 2 * (b (-90) + b 90) + (b (-90) - b 90) * lat / 180)) (mmap b (g_lat2 g)) (g_lat2 g))).
    { apply shaped_map2; [apply shaped_mmap|]; apply lat2_shaped. }
    rewrite (zeros_like_shaped (g_nlat g) (g_nlon g)) by exact S. f_equal.
    apply (mat_ext (g_nlat g) (g_nlon g)); [exact S|apply shaped_mat_of|]. intros i j Hi Hj.
    rewrite (mget_map2 (g_nlat g) (g_nlon g)) by (auto; try apply shaped_mmap; apply lat2_shaped).
    rewrite G, lat2_get, mget_mat_of by auto. reflexivity.
Qed.
Print Assumptions C77_gaussian_jet.

(** with stdev_lat = 0 and the centre on a grid latitude the jet is NaN there *)
Theorem C77_gaussian_jet_zero_width_refuted :
  exists g, mk_grid 90 1 1 (Some 1%Z) = Ok g /\ gaussian_jet d1_family g (@VNum numR 0) 20 0 0 = Err NotANumber.
Proof.
  exists (d1_grid 1 1). split; [apply d1_grid_ok; lra|]. unfold gaussian_jet. destruct (Req_EM_T 0 0); [|lra].
  replace (existsb _ _) with true; [reflexivity|]. symmetry. apply existsb_exists. exists (nth 1 (g_lat (d1_grid 1 1)) 0). split.
  - apply nth_In. rewrite lat_length. cbn. lia.
  - apply Reqb_true. rewrite lat_nth by (cbn; lia). cbn. lra.
Qed.
Print Assumptions C77_gaussian_jet_zero_width_refuted.

Theorem C77_held_1985 : forall K T res rs om nt g, mk_grid res rs om nt = Ok g -> forall (time : pyval K) A B C,
  exists u, built_from T g time u (held_1985 T g time A B C)
  /\ u 0%nat = 0 /\ u (g_nlat g - 1)%nat = 0
  /\ forall i, (i < g_nlat g)%nat -> let phi := nth i (g_phi g) 0 in
     u i = A * cos phi - B * cos phi ^ 3 + C * cos phi ^ 6 * sin phi ^ 2.
Proof.
  intros K T res rs om nt g Hg time A B C.
  exists (fun i => let phi := deg2rad (nth i (g_lat g) 0) in A * cos phi - B * cos phi ^ 3 + C * cos phi ^ 6 * sin phi ^ 2).
  destruct (pole_rows _ _ _ _ _ Hg) as [P0 P1]. split.
  { apply built_mmap; [apply phi2_shaped|]. intros i j Hi Hj. now rewrite phi2_get. }
  cbv zeta. split; [rewrite P0; replace (deg2rad 90) with (PI / 2) by (unfold deg2rad; lra); rewrite cos_PI2; ring|].
  split; [rewrite P1; replace (deg2rad (-90)) with (- (PI / 2)) by (unfold deg2rad; lra); rewrite cos_neg, cos_PI2; ring|].
  intros i Hi. now rewrite phi_nth.
Qed.
Print Assumptions C77_held_1985.

Example C77_example : mk_grid 90 1 1 (Some 1%Z) = Ok (d1_grid 1 1) /\ (5 = 0 -> ~ In 45 (g_lat (d1_grid 1 1))).
Proof. split; [apply d1_grid_ok; lra|lra]. Qed.
