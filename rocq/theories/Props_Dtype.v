(** Arrays of integers (C135). *)
From Coq Require Export String.
From Verif Require Import Base Spec_Grid Spec_Quad Spec_Interp Spec_Falwa Spec_Filter Spec_Dtype Model_Grid Model_Quad Model_Dtype.
From Verif Require Import Proofs_Base Proofs_Grid Proofs_Filter Proofs_Interp Proofs_Box Proofs_Quad Proofs_Zonalize Proofs_Falwa Proofs_Profile Proofs_Dtype.
From Verif Require Import Props_Filter Props_Profile.
From Coq Require Import List Lia Lra.
Import ListNotations.
Open Scope R_scope.

(** ** C135 *)
(** The filters fail as they do with floats, and otherwise round every value of
    the filtered field toward zero. *)
Theorem C135_filters : forall g field a,
  (forall out, filter_zonal_of DInt g field a = Ok out <-> exists ref, filter_zonal_of DFloat g field a = Ok ref /\ arrays toward_zero ref out)
  /\ (forall e, filter_zonal_of DInt g field a = Err e <-> filter_zonal_of DFloat g field a = Err e)
  /\ (forall out, filter_meridional_of DInt g field a = Ok out <-> exists ref, filter_meridional_of DFloat g field a = Ok ref /\ arrays toward_zero ref out)
  /\ (forall e, filter_meridional_of DInt g field a = Err e <-> filter_meridional_of DFloat g field a = Err e).
Proof.
  intros g field a. assert (I : forall r : res ndarray, (do x <- r; Ok (cast_array DFloat x)) = r).
  { intros [[v|m|]|e]; cbn [bind cast_array]; try reflexivity; do 2 f_equal; [apply map_id|]. unfold mmap.
    rewrite <- (map_id m) at 2. apply map_ext. intros r. apply map_id. }
  unfold filter_zonal_of, filter_meridional_of. rewrite !I. split; [intros; apply bind_cast|]. split; [intros; apply bind_err|].
  split; [intros; apply bind_cast|intros; apply bind_err].
Qed.
Print Assumptions C135_filters.
(** Floats are treated as in C63 and C64. *)
Theorem C135_floats : forall g f w, length f = g_nlon g -> unit_sum w ->
  exists out, filter_zonal_of DFloat g (A1 f) (ByArray w) = Ok (A1 out) /\ vmean out = vmean f.
Proof.
  intros g f w L U. destruct (C63_mean g f w L U) as [out [E [_ M]]]. exists out. split; [|exact M].
  unfold filter_zonal_of. rewrite E. cbn [bind cast_array]. do 2 f_equal. apply map_id.
Qed.
Print Assumptions C135_floats.
(** A field of zeros and ones stays one only where the window sees nothing but
    ones, and is zero everywhere else. *)
Theorem C135_masks : forall g f w, length f = g_nlon g -> unit_sum w -> Forall (fun x => 0 < x) w -> Forall (fun x => x = 0 \/ x = 1) f ->
  exists out, filter_zonal_of DInt g (A1 f) (ByArray w) = Ok (A1 out) /\ length out = length f
  /\ forall j, (j < length f)%nat -> (nth j out 0 = 0 \/ nth j out 0 = 1)
       /\ (nth j out 0 = 1 <-> forall i, covers (length f) (length w) j i -> nth i f 0 = 1).
Proof.
  intros g f w L U P M. unfold filter_zonal_of. rewrite zonal_1d by exact L. eexists. split; [reflexivity|]. split; [now rewrite map_length, conv_length|].
  intros j J. rewrite (nth_map_lt _ _ _ 0) by (rewrite conv_length; exact J). now apply mask_value.
Qed.
Print Assumptions C135_masks.
(** The mean of a field of integers is not preserved (compare C63): a single one
    vanishes in a running mean. *)
Theorem C135_mean_refuted : exists g f w, mk_grid 90 1 0 None = Ok g /\ length f = g_nlon g /\ unit_sum w /\ all_nonneg w /\ Forall integral f
  /\ filter_zonal_of DInt g (A1 f) (ByArray w) = Ok (A1 (repeat 0 (g_nlon g))) /\ vmean f = 1 / 4.
Proof.
  exists (gridA 1), [1; 0; 0; 0], [1 / 3; 1 / 3; 1 / 3]. pose proof (gridA_ok 1 ltac:(lra)) as Hg.
  assert (U : unit_sum [1 / 3; 1 / 3; 1 / 3]) by (unfold unit_sum; cbn; lra).
  assert (P : Forall (fun x => 0 < x) [1 / 3; 1 / 3; 1 / 3]) by (repeat constructor; lra).
  assert (M : Forall (fun x => x = 0 \/ x = 1) [1; 0; 0; 0]) by (repeat constructor; lra).
  split; [exact Hg|]. split; [reflexivity|]. split; [exact U|]. split; [eapply Forall_impl; [|exact P]; cbn; intros; lra|].
  split; [repeat constructor; [now exists 1%Z| | |]; now exists 0%Z|]. split; [|unfold vmean; cbn; lra].
  destruct (C135_masks (gridA 1) [1; 0; 0; 0] _ ltac:(reflexivity) U P M) as [out [E [L Q]]]. rewrite E. do 2 f_equal.
  cbn [length] in L. destruct out as [|a [|b [|c [|d [|]]]]]; try discriminate L. cbn [gridA g_nlon repeat].
  assert (Z : forall j, (j < 4)%nat -> nth j [a; b; c; d] 0 = 0).
  { intros j J. destruct (Q j J) as [[H|H] V]; [exact H|]. exfalso. pose proof (proj1 V H) as W. cbn [length] in W.
    assert (T : covers 4 3 j (if Nat.eqb j 0 then 1 else if Nat.eqb j 1 then 1 else if Nat.eqb j 2 then 2 else 3)).
    { exists (if Nat.eqb j 0 then 0%nat else 1%nat). destruct j as [|[|[|[|j]]]]; try lia; (split; [cbn; lia|reflexivity]). }
    specialize (W _ T). destruct j as [|[|[|[|j]]]]; try lia; cbn in W; lra. }
  pose proof (Z 0%nat ltac:(lia)). pose proof (Z 1%nat ltac:(lia)). pose proof (Z 2%nat ltac:(lia)). pose proof (Z 3%nat ltac:(lia)). cbn in *. congruence.
Qed.
Print Assumptions C135_mean_refuted.

(** Interpolation to the latitudes of the grid is that with floats if the pole
    values are integers. *)
Theorem C135_interpolation : forall g lat pole, integral (fst pole) -> integral (snd pole) ->
  (forall f, interpolate_1d_of DInt g f lat pole = interpolate_1d_of DFloat g f lat pole)
  /\ (forall f, interpolate_2d_of DInt g f lat pole = interpolate_2d_of DFloat g f lat pole).
Proof.
  intros g lat [a b] A B. unfold interpolate_1d_of, interpolate_2d_of. replace (cast_poles DInt (a, b)) with (cast_poles DFloat (a, b)); [easy|].
  unfold cast_poles. cbn [fst snd] in *. apply cast_integral in A, B. now rewrite A, B.
Qed.
Print Assumptions C135_interpolation.
(** Otherwise the values at the poles are rounded toward zero. *)
Theorem C135_poles : forall res rs om nt g, mk_grid res rs om nt = Ok g -> forall d f lat pole,
  length f = length lat -> (forall x, In x lat -> -90 < x < 90) -> NoDup lat ->
  exists z, interpolate_1d_of d g f lat pole = Ok z /\ length z = g_nlat g
  /\ (d = DFloat -> nth 0 z 0 = fst pole /\ nth (g_nlat g - 1) z 0 = snd pole)
  /\ (d = DInt -> toward_zero (fst pole) (nth 0 z 0) /\ toward_zero (snd pole) (nth (g_nlat g - 1) z 0)).
Proof.
  intros res rs om nt g Hg d f lat pole L I N. destruct (interp_1d_lemma lat f (cast_poles d pole) (g_lat g) L) as [z [E [Lz Q]]].
  - intros x Hx. specialize (I x Hx). lra.
  - exact N.
  - exact (lat_poles g).
  - rewrite lat_length in Lz, Q. pose proof (nlat_gt1' _ _ _ _ _ Hg) as N1. exists z. split; [exact E|]. split; [exact Lz|].
    assert (Z0 : nth 0 z 0 = cast d (fst pole)).
    { destruct (Q 0%nat ltac:(lia)) as [_ [_ [_ [P _]]]]. apply P; [rewrite lat_nth by lia; cbn [INR]; lra|]. intros X. specialize (I _ X). lra. }
    assert (Z1 : nth (g_nlat g - 1) z 0 = cast d (snd pole)).
    { destruct (Q (g_nlat g - 1)%nat ltac:(lia)) as [_ [_ [_ [_ P]]]]. apply P. rewrite lat_nth by lia. field. apply not_0_INR. lia. }
    rewrite Z0, Z1. split; intros ->; [easy|split; apply cast_int].
Qed.
Print Assumptions C135_poles.
(** zonalize with an array of integers as levels: the same as with floats where
    the extremes of the field are integers *)
Theorem C135_zonalize : forall g f levels qd nr nc lo hi, shaped nr nc f -> extremes nr nc f lo hi -> integral lo -> integral hi ->
  zonalize_of DInt g f levels qd = zonalize_of DFloat g f levels qd /\ zonalize_of DFloat g f levels qd = zonalize g f (LArr levels) qd.
Proof.
  intros g f levels qd nr nc lo hi S X L H. destruct (mmin_mmax _ _ f lo hi S X) as [E1 E2].
  unfold zonalize_of, zonalize. rewrite E1, E2. split; [|reflexivity]. destruct (zonalize_contours g f (LArr levels) qd) as [[q y]|e]; [|reflexivity]. cbn [bind].
  now apply C135_interpolation.
Qed.
Print Assumptions C135_zonalize.
(** A field between -1 and 1 is lost altogether with the level 0, given as an
    array of integers: the zonalized profile is 0 at all latitudes instead of
    going from the largest to the smallest value (compare C94). *)
Theorem C135_zonalize_refuted : forall res rs om nt g, mk_grid res rs om nt = Ok g ->
  forall nc f qd lo hi, known_method qd -> (0 < nc <= g_nlon g)%nat -> shaped (g_nlat g) nc f -> extremes (g_nlat g) nc f lo hi ->
  -1 < lo < 0 -> 0 < hi < 1 ->
  (exists z, zonalize_of DFloat g f [0] qd = Ok z /\ nth 0 z 0 = hi /\ nth (g_nlat g - 1) z 0 = lo)
  /\ zonalize_of DInt g f [0] qd = Ok (repeat 0 (g_nlat g)).
Proof.
  intros res rs om nt g Hg nc f qd lo hi Hm Hnc S X L H. destruct (mmin_mmax _ _ f lo hi S X) as [E1 E2]. unfold zonalize_of, interpolate_1d_of. rewrite E1, E2. split.
  - destruct (one_level _ _ _ _ _ Hg nc f qd lo hi 0 (cast_poles DFloat (hi, lo)) Hm Hnc S X ltac:(lra)) as [y [z [C [E [_ [Z0 [Z1 _]]]]]]].
    exists z. rewrite C. cbn [bind fst snd]. easy.
  - destruct (one_level _ _ _ _ _ Hg nc f qd lo hi 0 (cast_poles DInt (hi, lo)) Hm Hnc S X ltac:(lra)) as [y [z [C [E [Lz [_ [_ O]]]]]]].
    rewrite C. cbn [bind fst snd]. rewrite E. f_equal.
    assert (P : cast_poles DInt (hi, lo) = (0, 0)) by (unfold cast_poles; cbn [fst snd]; rewrite !cast_small by (apply Rabs_def1; lra); easy). rewrite P in O.
    apply (list_eq_nth 0); [now rewrite repeat_length|]. intros i Hi. rewrite nth_repeat.
    specialize (O (nth i z 0) (nth_In _ _ Hi) 0 0). enough (0 <= nth i z 0 <= 0) by lra. apply O.
    intros p [Hp|[Hp|[[|k] [Hk Hp]]]]; [rewrite Hp; cbn; lra..|cbn in Hk; lia].
Qed.
Print Assumptions C135_zonalize_refuted.
Example C135_nonvacuous : exists g f, mk_grid 90 1 0 None = Ok g /\ shaped (g_nlat g) 4 f /\ extremes (g_nlat g) 4 f (- (1 / 2)) (1 / 2) /\ (0 < 4 <= g_nlon g)%nat
  /\ integral 3 /\ toward_zero (- (5 / 2)) (-2) /\ covers 4 3 0 3.
Proof.
  exists (gridA 1), (mat_of 3 4 (fun i _ => match i with 0%nat => 1 / 2 | 1%nat => 0 | _ => - (1 / 2) end)). split; [apply gridA_ok; lra|].
  split; [apply shaped_mat_of|]. split; [split; [|split]|].
  - intros i j Hi Hj. cbn [gridA g_nlat] in Hi. rewrite mget_mat_of by assumption. destruct i as [|[|i]]; lra.
  - exists 2%nat, 0%nat. cbn [gridA g_nlat]. rewrite mget_mat_of by lia. repeat split; lia.
  - exists 0%nat, 0%nat. cbn [gridA g_nlat]. rewrite mget_mat_of by lia. repeat split; lia.
  - split; [cbn; lia|]. split; [now exists 3%Z|]. split.
    + split; [now exists (-2)%Z|]. split; [apply Rabs_def1; lra|lra].
    + exists 2%nat. split; [lia|reflexivity].
Qed.
