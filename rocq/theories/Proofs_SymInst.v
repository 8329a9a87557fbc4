(** The concrete transforms of Spec_Instance have the three symmetries. *)
From Coq Require Export String.
From Verif Require Import Base Model_Grid Model_Time Model_Spectral Model_State Model_Run Spec_Grid Spec_Spectral Spec_Instance Spec_State Spec_Run Spec_Sym Spec_Symmetry.
From Verif Require Import Proofs_Base Proofs_Grid Proofs_Spectral Proofs_Instance Proofs_State Proofs_Step Proofs_Run Proofs_Sym Proofs_Symmetry.
From Coquelicot Require Import Complex.
From Coq Require Import List Lia Lra.
Import ListNotations.
Open Scope R_scope.

(** the transform of degree 1 has all three symmetries *)
Lemma d1_turn a b c : turn 1 4 [a; b; c] = [a; b; (- Im c, Re c)].
Proof.
  unfold turn, weigh. cbn [length seq map]. unfold order, order_from, coef. cbn [Nat.ltb Nat.leb Nat.sub nth]. cbv zeta.
  replace (INR 0 * (2 * PI / INR 4)) with 0 by (cbn; ring). replace (INR 1 * (2 * PI / INR 4)) with (PI / 2) by (cbn; field).
  rewrite cos_0, sin_0, cos_PI2, sin_PI2. destruct a, b, c. unfold Cmult. cbn [fst snd Re Im]. list3; apply pair_eqC; ring.
Qed.
Lemma d1_flip s a b c : flip s 1 [a; b; c] = [(RtoC s * a)%C; (RtoC (- s) * b)%C; (RtoC s * c)%C].
Proof.
  unfold flip, weigh. cbn [length seq map]. unfold order, order_from, degree, coef. cbn.
  destruct a, b, c. unfold Cmult, RtoC. cbn [fst snd]. list3; apply pair_eqC; ring.
Qed.
Lemma row4 (r : vec) : length r = 4%nat -> exists a b c d, r = [a; b; c; d].
Proof. destruct r as [|a [|b [|c [|d [|? ?]]]]]; cbn; intros L; try lia. now exists a, b, c, d. Qed.
Lemma mat34 (f : mat) : shaped 3 4 f -> exists a b c d e g h i j k l m, f = [[a; b; c; d]; [e; g; h; i]; [j; k; l; m]].
Proof.
  intros [L F]. destruct f as [|x [|y [|z [|? ?]]]]; cbn in L; try lia. rewrite Forall_forall in F.
  destruct (row4 x) as (a & b & c & d & ->); [apply F; cbn; auto|]. destruct (row4 y) as (e & g & h & i & ->); [apply F; cbn; auto|].
  destruct (row4 z) as (j & k & l & m & ->); [apply F; cbn; auto|]. now exists a, b, c, d, e, g, h, i, j, k, l, m.
Qed.
Ltac shape3 S f := apply mat34 in S; destruct S as (? & ? & ? & ? & ? & ? & ? & ? & ? & ? & ? & ? & ->).
Ltac len3 x L := change (length x = 3%nat) in L; destruct x as [|[] [|[] [|[] [|? ?]]]]; cbn [length] in L; try lia.
Ltac entries := repeat match goal with
  | |- _ :: _ = _ :: _ => apply f_equal2 | |- (_, _) = (_, _) => apply f_equal2 | |- nil = nil => reflexivity end; try ring.
Ltac matrices := unfold rotate, westward, relabel, mirror, mscale, mat_of, d1_synthesis, d1_getuv, d1_getvrtdiv, d1_analysis, row_mean, row_cos, row_sin, mget, coef, sscale, RtoC, Cconj, Cmult; cbn; unfold Rdiv; entries.
Lemma d1_rotates rs om : rotates d1_family (d1_grid rs om).
Proof.
  unfold rotates, sph, d1_family, d1_grid. cbn [g_nlat g_nlon g_rsphere g_ntrunc].
  constructor; cbn [sh_grdtospec sh_spectogrd sh_getuv sh_getvrtdivspec].
  - intros f S. shape3 S f. unfold d1_analysis. rewrite d1_turn. matrices.
  - intros x L. len3 x L. rewrite d1_turn. matrices.
  - intros z d L L'. len3 z L. len3 d L'. rewrite !d1_turn. matrices.
  - intros u v S S'. shape3 S u. shape3 S' v. unfold d1_getvrtdiv. cbn [fst snd]. rewrite !d1_turn. matrices.
Qed.
Lemma d1_reflects rs om : reflects d1_family (d1_grid rs om).
Proof.
  unfold reflects, sph, d1_family, d1_grid. cbn [g_nlat g_nlon g_rsphere g_ntrunc].
  constructor; cbn [sh_grdtospec sh_spectogrd sh_getuv sh_getvrtdivspec].
  - intros s f S. shape3 S f. unfold d1_analysis. rewrite d1_flip. matrices.
  - intros s x L. len3 x L. rewrite d1_flip. matrices.
  - intros z d L L'. len3 z L. len3 d L'. rewrite !d1_flip. matrices.
  - intros s u v S S'. shape3 S u. shape3 S' v. unfold d1_getvrtdiv. cbn [fst snd]. rewrite !d1_flip. matrices.
Qed.
Lemma d1_reverses rs om : reverses d1_family (d1_grid rs om).
Proof.
  unfold reverses, sph, d1_family, d1_grid. cbn [g_nlat g_nlon g_rsphere g_ntrunc].
  constructor; cbn [sh_grdtospec sh_spectogrd sh_getuv sh_getvrtdivspec].
  - intros f S. shape3 S f. matrices.
  - intros z d L L'. len3 z L. len3 d L'. matrices.
  - intros u v S S'. shape3 S u. shape3 S' v. matrices.
  - intros u v k Hk. unfold d1_getvrtdiv. cbn [snd]. destruct k as [|[|[|k]]]; try reflexivity; [discriminate Hk|]. unfold coef. destruct k; reflexivity.
Qed.
