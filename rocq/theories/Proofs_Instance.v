(** The concrete transforms of Spec_Instance meet the assumptions. *)
From Coq Require Export String.
From Verif Require Import Base Model_Grid Model_Spectral Spec_Grid Spec_Spectral Spec_Instance.
From Verif Require Import Proofs_Base Proofs_Grid Proofs_Spectral.
From Coquelicot Require Import Coquelicot.
From Coq Require Import Lia Lra.
Open Scope R_scope.

Lemma d1_grid_ok rs om : 0 < rs -> mk_grid 90 rs om (Some 1%Z) = Ok (d1_grid rs om).
Proof.
  intros H. unfold mk_grid. destruct (Req_EM_T 90 0); [lra|].
  unfold nlon_of, nlat_of. replace (360 / 90) with (IZR 4) by lra. replace (180 / 90) with (IZR 2) by lra.
  rewrite (py_int_nonneg (IZR 4)) by lra. rewrite (py_int_nonneg (IZR 2)) by lra. rewrite !Int_part_IZR. cbn [Z.ltb Z.leb Z.compare orb Z.add Z.sub].
  replace (Rltb 0 rs) with true by (symmetry; now apply Rltb_true). reflexivity.
Qed.

Lemma row_lin (F : mat -> nat -> R) a b f h i : (i < 3)%nat -> shaped 3 4 f -> shaped 3 4 h ->
  (F = row_mean \/ F = row_cos \/ F = row_sin) ->
  F (madd (mscale a f) (mscale b h)) i = a * F f i + b * F h i.
Proof.
  intros Hi Hf Hh HF. unfold madd, vadd.
  assert (E : forall j, (j < 4)%nat -> mget (map2 (map2 Rplus) (mscale a f) (mscale b h)) i j = a * mget f i j + b * mget h i j).
  { intros j Hj. rewrite (mget_map2 3 4) by (auto using shaped_mscale). now rewrite !(mget_mscale 3 4). }
  destruct HF as [->|[->| ->]]; unfold row_mean, row_cos, row_sin; rewrite !E by lia; field.
Qed.

Lemma coef_lin a b x y k n : length x = n -> length y = n -> (k < n)%nat ->
  coef (sadd (sscale a x) (sscale b y)) k = (RtoC a * coef x k + RtoC b * coef y k)%C.
Proof.
  intros Hx Hy Hk. rewrite coef_sadd by (rewrite !sscale_length; lia).
  now rewrite !coef_sscale by lia.
Qed.
Lemma Re_lin a b (x y : C) : Re (RtoC a * x + RtoC b * y)%C = a * Re x + b * Re y.
Proof. destruct x, y. cbn. ring. Qed.
Lemma Im_lin a b (x y : C) : Im (RtoC a * x + RtoC b * y)%C = a * Im x + b * Im y.
Proof. destruct x, y. cbn. ring. Qed.

Lemma mat_lin a b (f1 f2 f : nat -> nat -> R) : (forall i j, f i j = a * f1 i j + b * f2 i j) ->
  mat_of 3 4 f = madd (mscale a (mat_of 3 4 f1)) (mscale b (mat_of 3 4 f2)).
Proof.
  intros H. unfold madd, vadd. apply (mat_ext 3 4).
  - apply shaped_mat_of.
  - apply shaped_map2; apply shaped_mscale; apply shaped_mat_of.
  - intros i j Hi Hj. rewrite (mget_map2 3 4) by (auto using shaped_mscale, shaped_mat_of).
    rewrite !(mget_mscale 3 4) by (auto using shaped_mat_of). rewrite !mget_mat_of by auto. apply H.
Qed.

Ltac clin := rewrite !(coef_lin _ _ _ _ _ 3) by (assumption || lia); rewrite ?Re_lin, ?Im_lin.

Lemma pair_eqC (a b c d : R) : a = c -> b = d -> (a, b) = (c, d) :> C.
Proof. congruence. Qed.
Ltac list3 := apply f_equal2; [|apply f_equal2; [|apply f_equal2; [|reflexivity]]].

Lemma d1_exact rs om : 0 < rs -> exact_on d1_family (d1_grid rs om).
Proof.
  intros Hr. unfold exact_on, sph, d1_family, d1_grid. cbn [g_nlat g_nlon g_rsphere g_ntrunc].
  assert (N3 : nspec 1 = 3%nat) by reflexivity.
  constructor; cbn [sh_grdtospec sh_spectogrd sh_getuv sh_getvrtdivspec sh_getgrad]; try rewrite N3.
  - reflexivity.
  - intros x. apply shaped_mat_of.
  - intros a b f h Hf Hh. unfold d1_analysis, sadd, sscale. cbn [map map2].
    rewrite !(row_lin row_mean) by (auto || lia). rewrite (row_lin row_cos), (row_lin row_sin) by (auto || lia).
    list3; apply pair_eqC; cbn; field.
  - intros a b x y Hx Hy. apply mat_lin. intros i j. clin. ring.
  - intros f Hf. unfold resolved. cbn [sh_grdtospec sh_spectogrd].
    assert (E : forall i j, (i < 3)%nat -> (j < 4)%nat -> mget (d1_synthesis (d1_analysis f 1)) i j
       = (row_mean f 0 + row_mean f 2) / 2 + (row_mean f 0 - row_mean f 2) / 2 * d1_sphi i
         + (row_cos f 1 * d1_clam j + row_sin f 1 * d1_slam j) * d1_cphi i).
    { intros i j Hi Hj. unfold d1_synthesis. rewrite mget_mat_of by auto. unfold d1_analysis, coef. cbn. ring. }
    set (y := d1_synthesis (d1_analysis f 1)) in *. clearbody y. unfold d1_analysis.
    set (p := row_mean f 0) in *. set (q := row_mean f 2) in *. set (c := row_cos f 1) in *. set (t := row_sin f 1) in *. list3.
    + unfold RtoC. apply pair_eqC; [|reflexivity]. unfold row_mean. rewrite !E by lia. unfold d1_sphi, d1_clam, d1_slam, d1_cphi. cbn [nth]. field.
    + unfold RtoC. apply pair_eqC; [|reflexivity]. unfold row_mean. rewrite !E by lia. unfold d1_sphi, d1_clam, d1_slam, d1_cphi. cbn [nth]. field.
    + apply pair_eqC; [unfold row_cos|unfold row_sin]; rewrite !E by lia; unfold d1_sphi, d1_clam, d1_slam, d1_cphi; cbn [nth]; field.
  - intros x y. split; apply shaped_mat_of.
  - intros a b x y x' y' H1 H2 H3 H4. cbn zeta. unfold d1_getuv. cbn [fst snd].
    split; apply mat_lin; intros i j; clin; ring.
  - intros u v. split; reflexivity.
  - intros a b u v u' v' H1 H2 H3 H4. cbn zeta. unfold d1_getvrtdiv, sadd, sscale. cbn [fst snd map map2].
    rewrite !(row_lin row_mean), !(row_lin row_cos), !(row_lin row_sin) by (auto || lia).
    split; list3; apply pair_eqC; cbn; try ring.
  - intros u v. split; reflexivity.
  - intros z Hz Hres H0. cbn zeta. unfold resolved in Hres. cbn [sh_grdtospec sh_spectogrd] in Hres.
    assert (EI : Im (coef z 1) = 0) by (rewrite <- Hres; reflexivity).
    destruct z as [|z0 [|z1 [|z2 [|? ?]]]]; cbn in Hz; try lia. unfold coef in H0, EI. cbn [nth] in H0, EI. subst z0.
    assert (Eu : forall i j, (i < 3)%nat -> (j < 4)%nat ->
       mget (fst (d1_getuv rs [RtoC 0; z1; z2] (repeat (RtoC 0) 3))) i j
       = rs / 2 * (Re z1 * d1_cphi i - (Re z2 * d1_clam j - Im z2 * d1_slam j) * d1_sphi i)).
    { intros i j Hi Hj. unfold d1_getuv. cbn [fst]. rewrite mget_mat_of by auto. rewrite !coef_zero. unfold coef. cbn [nth]. cbn. ring. }
    assert (Ev : forall i j, (i < 3)%nat -> (j < 4)%nat ->
       mget (snd (d1_getuv rs [RtoC 0; z1; z2] (repeat (RtoC 0) 3))) i j
       = rs / 2 * (Re z2 * d1_slam j + Im z2 * d1_clam j)).
    { intros i j Hi Hj. unfold d1_getuv. cbn [snd]. rewrite mget_mat_of by auto. rewrite !coef_zero. unfold coef. cbn [nth]. cbn. ring. }
    unfold d1_getvrtdiv, row_mean, row_cos, row_sin. rewrite !Eu, !Ev by lia.
    unfold d1_sphi, d1_clam, d1_slam, d1_cphi. cbn [nth repeat].
    destruct z1 as [z1 z1'], z2 as [z2 z2']. cbn in EI. subst z1'. cbn [Re Im fst snd]. unfold RtoC.
    apply f_equal2; list3; apply pair_eqC; try reflexivity; field; lra.
  - reflexivity.
  - intros c. unfold resolved. cbn [sh_grdtospec sh_spectogrd repeat Nat.sub].
    unfold d1_analysis, row_mean, row_cos, row_sin, d1_synthesis. rewrite !mget_mat_of by lia.
    unfold coef, d1_sphi, d1_clam, d1_slam, d1_cphi. cbn [nth Re Im RtoC fst snd].
    list3; apply pair_eqC; cbn; try field; reflexivity.
  - intros c. unfold d1_getuv. apply f_equal2; apply mat_of_ext; intros i j _ _; cbn; ring.
  - intros x. split; apply shaped_mat_of.
  - intros a b x y Hx Hy. cbn zeta. unfold d1_getgrad. cbn [fst snd]. split; apply mat_lin; intros i j; clin; ring.
  - intros c. exists c. cbn [repeat Nat.sub]. unfold d1_analysis, row_mean, row_cos, row_sin. rewrite !mget_mat_of by lia.
    list3; apply pair_eqC; cbn; try field; reflexivity.
  - intros c. unfold d1_getgrad. apply f_equal2; apply mat_of_ext; intros i j _ _; cbn; ring.
Qed.
