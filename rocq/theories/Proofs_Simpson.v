(** The transforms of Spec_Simpson meet the assumptions. *)
From Coq Require Export String.
From Verif Require Import Base Model_Grid Model_Spectral Model_Time Model_State Model_Run Spec_Grid Spec_Spectral Spec_Calculus Spec_Instance Spec_Simpson Spec_Symmetry Spec_Relax Spec_Waves.
From Verif Require Import Proofs_Base Proofs_Grid Proofs_Spectral Proofs_Instance Proofs_State Proofs_SymInst.
From Coquelicot Require Import Coquelicot.
From Coq Require Import List Lia Lra.
Import ListNotations.
Open Scope R_scope.

(** both transforms on coefficients and on matrices written out *)
Ltac trigs := unfold d1_sphi, d1_cphi, d1_clam, d1_slam; cbn [nth].
Lemma s1_AB x : s1_analysis (d1_synthesis x) 1 = [RtoC (Re (coef x 0)); RtoC (Re (coef x 1)); coef x 2].
Proof.
  assert (E : forall i j, (i < 3)%nat -> (j < 4)%nat -> mget (d1_synthesis x) i j
     = Re (coef x 0) + Re (coef x 1) * d1_sphi i + (Re (coef x 2) * d1_clam j - Im (coef x 2) * d1_slam j) * d1_cphi i).
  { intros i j Hi Hj. unfold d1_synthesis. now rewrite mget_mat_of by auto. }
  set (y := d1_synthesis x) in *. clearbody y. unfold s1_analysis, simpson, row_mean, row_cos, row_sin. rewrite !E by lia.
  trigs. destruct (coef x 0) as [p p'], (coef x 1) as [q q'], (coef x 2) as [t t'].
  cbn [Re Im fst snd]. list3; unfold RtoC; apply pair_eqC; try reflexivity; field.
Qed.
Lemma s1_resolved x : length x = 3%nat -> (s1_analysis (d1_synthesis x) 1 = x <-> Im (coef x 0) = 0 /\ Im (coef x 1) = 0).
Proof.
  intros L. rewrite s1_AB. destruct x as [|[p p'] [|[q q'] [|z [|? ?]]]]; cbn in L; try lia. unfold coef. cbn [nth Re Im fst snd].
  unfold RtoC. split; [|intros [-> ->]; reflexivity]. intros E. split; congruence.
Qed.
(** vorticity and divergence of a wind with given vorticity and divergence *)
Lemma s1_wind r z d : r <> 0 -> length z = 3%nat -> length d = 3%nat ->
  s1_vorticity r (fst (d1_getuv r z d)) (snd (d1_getuv r z d)) = [RtoC 0; RtoC (Re (coef z 1)); coef z 2]
  /\ s1_divergence r (fst (d1_getuv r z d)) (snd (d1_getuv r z d)) = [RtoC 0; RtoC (Re (coef d 1)); coef d 2].
Proof.
  intros Hr Lz Ld. unfold s1_vorticity, s1_divergence, simpson, row_mean, row_cos, row_sin, d1_getuv. cbn [fst snd]. rewrite !mget_mat_of by lia. trigs.
  destruct (coef z 1) as [z1 z1'], (coef z 2) as [z2 z2'], (coef d 1) as [d1 d1'], (coef d 2) as [d2 d2']. cbn [Re Im fst snd].
  split; list3; unfold RtoC; apply pair_eqC; try reflexivity; field; exact Hr.
Qed.
Lemma s1_exact rs om : 0 < rs -> exact_on s1_family (d1_grid rs om).
Proof.
  intros Hr. unfold exact_on, sph, s1_family, d1_grid. cbn [g_nlat g_nlon g_rsphere g_ntrunc].
  assert (N3 : nspec 1 = 3%nat) by reflexivity.
  constructor; cbn [sh_grdtospec sh_spectogrd sh_getuv sh_getvrtdivspec sh_getgrad]; try rewrite N3.
  - reflexivity.
  - intros x. apply shaped_mat_of.
  - intros a b f h Hf Hh. unfold s1_analysis, simpson, sadd, sscale. cbn [map map2].
    rewrite !(row_lin row_mean), !(row_lin row_cos), !(row_lin row_sin) by (auto || lia).
    list3; apply pair_eqC; cbn; field.
  - intros a b x y Hx Hy. apply mat_lin. intros i j. clin. ring.
  - intros f Hf. unfold resolved. cbn [sh_grdtospec sh_spectogrd]. apply s1_resolved; [reflexivity|]. split; reflexivity.
  - intros x y. split; apply shaped_mat_of.
  - intros a b x y x' y' H1 H2 H3 H4. cbn zeta. unfold d1_getuv. cbn [fst snd].
    split; apply mat_lin; intros i j; clin; ring.
  - intros u v. split; reflexivity.
  - intros a b u v u' v' H1 H2 H3 H4. cbn zeta. unfold s1_vorticity, s1_divergence, simpson, sadd, sscale. cbn [fst snd map map2].
    rewrite !(row_lin row_mean), !(row_lin row_cos), !(row_lin row_sin) by (auto || lia).
    split; list3; apply pair_eqC; cbn; try ring; field; lra.
  - intros u v. split; reflexivity.
  - intros z Hz Hres H0. cbn zeta. unfold resolved in Hres. cbn [sh_grdtospec sh_spectogrd] in Hres. apply (s1_resolved z Hz) in Hres. destruct Hres as [_ EI].
    destruct (s1_wind rs z (repeat (RtoC 0) 3) ltac:(lra) Hz eq_refl) as [-> ->]. rewrite !coef_zero.
    destruct z as [|z0 [|[z1 z1'] [|z2 [|? ?]]]]; cbn in Hz; try lia. unfold coef in *. cbn in *. subst z0 z1'. reflexivity.
  - reflexivity.
  - intros c. unfold resolved. cbn [sh_grdtospec sh_spectogrd repeat Nat.sub]. apply s1_resolved; [reflexivity|]. split; reflexivity.
  - intros c. unfold d1_getuv. apply f_equal2; apply mat_of_ext; intros i j _ _; cbn; ring.
  - intros x. split; apply shaped_mat_of.
  - intros a b x y Hx Hy. cbn zeta. unfold d1_getgrad. cbn [fst snd]. split; apply mat_lin; intros i j; clin; ring.
  - intros c. exists c. cbn [repeat Nat.sub]. unfold s1_analysis, simpson, row_mean, row_cos, row_sin. rewrite !mget_mat_of by lia. trigs.
    list3; apply pair_eqC; cbn; try field; reflexivity.
  - intros c. unfold d1_getgrad. apply f_equal2; apply mat_of_ext; intros i j _ _; cbn; ring.
Qed.
Lemma s1_calculus rs om : 0 < rs -> calculus_on s1_family (d1_grid rs om).
Proof.
  intros Hr. unfold calculus_on, sph, s1_family, d1_grid. cbn [g_nlat g_nlon g_rsphere g_ntrunc].
  assert (N3 : nspec 1 = 3%nat) by reflexivity.
  constructor; unfold resolved; cbn [sh_grdtospec sh_spectogrd sh_getuv sh_getvrtdivspec sh_getgrad]; try rewrite N3.
  - intros x y w Lx Ly Rx E. apply (s1_resolved x Lx) in Rx. apply (s1_resolved y Ly).
    rewrite !E by lia. destruct (coef x 0), (coef x 1). cbn in Rx |- *. destruct Rx as [-> ->]. split; ring.
  - intros z d Lz Ld Rz Rd Z0 D0. cbn zeta. apply (s1_resolved z Lz) in Rz. apply (s1_resolved d Ld) in Rd.
    destruct Rz as [_ Rz], Rd as [_ Rd]. destruct (s1_wind rs z d ltac:(lra) Lz Ld) as [-> ->].
    destruct z as [|z0 [|[z1 z1'] [|z2 [|? ?]]]]; cbn in Lz; try lia. destruct d as [|d0 [|[d1 d1'] [|d2 [|? ?]]]]; cbn in Ld; try lia.
    unfold coef in *. cbn in *. subst. reflexivity.
  - intros c. unfold d1_getuv. apply f_equal2; apply mat_of_ext; intros i j _ _; cbn; ring.
  - intros x k Lx Rx. apply (s1_resolved x Lx) in Rx.
    unfold s1_vorticity, simpson, row_mean, row_cos, row_sin, d1_getgrad. cbn [fst snd]. rewrite !mget_mat_of by lia. trigs. unfold coef.
    destruct x as [|x0 [|x1 [|x2 [|? ?]]]]; cbn in Lx; try lia. cbn [nth].
    destruct k as [|[|[|k]]]; [reflexivity| | |now destruct k]; cbn [nth]; unfold RtoC; apply pair_eqC; try reflexivity; field; lra.
  - intros x k Lx Rx Hk. apply (s1_resolved x Lx) in Rx.
    unfold s1_divergence, simpson, row_mean, row_cos, row_sin, d1_getgrad. cbn [fst snd]. rewrite !mget_mat_of by lia. trigs. unfold coef.
    destruct x as [|[x0 x0'] [|[x1 x1'] [|[x2 x2'] [|? ?]]]]; cbn in Lx; try lia. unfold coef in Rx. cbn in Rx. destruct Rx as [-> ->].
    destruct k as [|[|[|k]]]; try lia; unfold RtoC, Cmult, degree; cbn [nth Re Im fst snd degree_from Nat.ltb Nat.leb Nat.sub];
      apply pair_eqC; unfold eigenvalue; cbn [INR Nat.add]; field; lra.
Qed.
Lemma s1_divergences rs om : resolved_divergence s1_family (d1_grid rs om).
Proof. intros u v _ _. apply s1_resolved; [reflexivity|]. split; reflexivity. Qed.

Lemma s1_sine : sine_lat 3 4 = mat_of 3 4 (fun i _ => d1_sphi i).
Proof.
  apply mat_of_ext. intros i j Hi Hj. trigs. change (INR (3 - 1)) with 2.
  destruct i as [|[|[|i]]]; try lia; cbn [INR nth].
  - replace (PI / 2 - PI * 0 / 2) with (PI / 2) by field. apply sin_PI2.
  - replace (PI / 2 - PI * 1 / 2) with 0 by field. apply sin_0.
  - replace (PI / 2 - PI * (1 + 1) / 2) with (- (PI / 2)) by field. rewrite sin_neg, sin_PI2. reflexivity.
Qed.
Lemma s1_sine_spectral : s1_analysis (mat_of 3 4 (fun i _ => d1_sphi i)) 1 = [RtoC 0; RtoC 1; RtoC 0].
Proof.
  unfold s1_analysis, simpson, row_mean, row_cos, row_sin. rewrite !mget_mat_of by lia. trigs. unfold RtoC. list3; apply pair_eqC; field.
Qed.
Lemma degree1 z : of_degree 1 1 z -> exists p q, z = [RtoC 0; p; q].
Proof.
  intros [L E]. change (length z = 3%nat) in L. destruct z as [|z0 [|z1 [|z2 [|? ?]]]]; cbn in L; try lia.
  exists z1, z2. specialize (E 0%nat). unfold coef, degree, degree_from in E. cbn in E. rewrite E by lia. reflexivity.
Qed.
Ltac products := unfold s1_divergence, simpson, row_mean, row_cos, row_sin, d1_synthesis, d1_getuv; change (nspec 1) with 3%nat; cbn [fst snd];
  rewrite !(mget_mmul 3 4) by (apply shaped_mat_of || lia); rewrite !mget_mat_of by lia; trigs; rewrite ?coef_zero; unfold coef at 1 2 3 4 5 6; cbn [nth Re Im RtoC fst snd].
Lemma s1_products rs om : 0 < rs -> products_on s1_family (d1_grid rs om) 1.
Proof.
  intros Hr. unfold products_on, sph, s1_family, d1_grid. cbn [g_nlat g_nlon g_rsphere g_ntrunc].
  constructor; unfold resolved, flux_divergence; cbn [sh_grdtospec sh_spectogrd sh_getuv sh_getvrtdivspec snd]; rewrite ?s1_sine, ?s1_sine_spectral.
  - unfold d1_synthesis. apply mat_of_ext. intros i j Hi Hj. unfold coef. cbn. ring.
  - intros z k D R. apply degree1 in D. destruct D as [[p p'] [[q q'] ->]]. apply s1_resolved in R; [|reflexivity]. destruct R as [_ R]. cbn in R. subst p'.
    products. unfold coef. destruct k as [|[|[|k]]]; [reflexivity| | |now destruct k]; cbn; unfold RtoC; apply pair_eqC; try reflexivity; field; lra.
  - intros k. products. unfold coef. destruct k as [|[|[|k]]]; [reflexivity| | |now destruct k]; cbn; unfold RtoC; apply pair_eqC; try reflexivity; field; lra.
  - intros z k D R Hk. apply degree1 in D. destruct D as [[p p'] [[q q'] ->]]. apply s1_resolved in R; [|reflexivity]. destruct R as [_ R]. cbn in R. subst p'.
    products. unfold coef, order, order_from. change (nspec 1) with 3%nat in Hk. destruct k as [|[|[|k]]]; try lia; cbn; unfold RtoC, Cmult; cbn [fst snd]; apply pair_eqC; try reflexivity; field; lra.
  - intros z k D R Hk. apply degree1 in D. destruct D as [[p p'] [[q q'] ->]]. apply s1_resolved in R; [|reflexivity]. destruct R as [_ R]. cbn in R. subst p'.
    products. unfold coef, order, order_from. change (nspec 1) with 3%nat in Hk. destruct k as [|[|[|k]]]; try lia; cbn; unfold RtoC, Cmult; cbn [fst snd]; apply pair_eqC; try reflexivity; field; lra.
Qed.
