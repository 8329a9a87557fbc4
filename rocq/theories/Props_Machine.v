(** Fields of machine integers (C139). *)
From Coq Require Export String.
From Verif Require Import Base Model_Grid Model_Region Model_Deriv Model_Quad Model_Machine.
From Verif Require Import Spec_Grid Spec_Quad Spec_Machine Proofs_Base Proofs_Grid Proofs_Region Proofs_Box Proofs_Quad Proofs_Zonalize Proofs_Machine.
From Coq Require Import List Lia Lra ZArith.
Import ListNotations.
Open Scope R_scope.

(** ** Derivatives *)
(** The numerator of the derivative of signed integers is reduced into the range of
    the type; so the derivative is that of floats exactly where it fits. *)
Theorem C139_derivative_field : forall res rs om nt g, mk_grid res rs om nt = Ok g -> forall w a c m, (0 < w)%Z -> is_order a c ->
  (forall e, derivative_meridional g (A2 (mfloats m)) a = Err e <-> derivative_signed w g (Z2 m) a = Err e)
  /\ forall d, derivative_meridional g (A2 (mfloats m)) a = Ok d ->
       exists f f', d = A2 f /\ derivative_signed w g (Z2 m) a = Ok (A2 f')
         /\ shaped (List.length m) (zncols m) f /\ shaped (List.length m) (zncols m) f'
         /\ forall i j, (i < List.length m)%nat -> (j < zncols m)%nat -> wrapped w c (g_dphi g) (mget f i j) (mget f' i j).
Proof. exact derivative_field. Qed.
Print Assumptions C139_derivative_field.
Theorem C139_derivative_profile : forall res rs om nt g, mk_grid res rs om nt = Ok g -> forall w a c v, (0 < w)%Z -> is_order a c ->
  (forall e, derivative_meridional g (A1 (floats v)) a = Err e <-> derivative_signed w g (Z1 v) a = Err e)
  /\ forall d, derivative_meridional g (A1 (floats v)) a = Ok d ->
       exists f f', d = A1 f /\ derivative_signed w g (Z1 v) a = Ok (A1 f') /\ List.length f = List.length v /\ List.length f' = List.length v
         /\ forall i, (i < List.length v)%nat -> wrapped w c (g_dphi g) (nth i f 0) (nth i f' 0).
Proof. exact derivative_1d. Qed.
Print Assumptions C139_derivative_profile.
(** With values below 1/128 of the largest integer (1/8 for order 2) derivatives are
    those of floats. *)
Theorem C139_derivative_small : forall w g f a c B, (0 < w)%Z -> is_order a c -> (0 <= B)%Z -> (largest_sum c * B < 2 ^ (w - 1))%Z ->
  match f with Z1 v => Forall (fun x => - B <= x <= B)%Z v | Z2 m => Forall (Forall (fun x => - B <= x <= B)%Z) m end ->
  derivative_signed w g f a = derivative_meridional g (zfloats f) a.
Proof.
  intros w g f a c B W Ha HB Hw. apply (derivative_small w g f a c B W Ha HB). unfold largest_sum, Reqb in *. now destruct (Req_EM_T c 2).
Qed.
Print Assumptions C139_derivative_small.
(** The derivative of a profile of unsigned integers is never positive; it is that
    of floats only where the profile does not decrease. *)
Theorem C139_derivative_unsigned : forall res rs om nt g, mk_grid res rs om nt = Ok g -> (3 <= g_nlat g)%nat ->
  forall w v, (0 < w)%Z -> Forall (fits (Unsigned w)) v ->
  exists d d', derivative_meridional g (A1 (floats v)) (ONum 2) = Ok (A1 d) /\ derivative_profile2 (Unsigned w) g v = Ok d'
    /\ List.length d' = List.length v /\ (forall i, (i < List.length v)%nat -> nth i d' 0 <= 0)
    /\ nth 0 d' 0 = 0 /\ nth (List.length v - 1) d' 0 = 0
    /\ forall i, (0 < i < List.length v - 1)%nat -> (nth i d' 0 = nth i d 0 <-> (nth (i - 1) v 0 <= nth (i + 1) v 0)%Z).
Proof. exact profile_unsigned. Qed.
Print Assumptions C139_derivative_unsigned.

(** ** Quadrature *)
(** The integral over the region z >= 0 is that of floats if differences between
    neighbours fit; boxcounting always gives that of floats. *)
Theorem C139_quad : forall ty tz g y z, (0 < bits ty)%Z -> (0 < bits tz)%Z ->
  (gentle ty tz y z -> zquad ty tz g y (Some z) "sptrapz" = quad g (A2 (mfloats y)) (Some (mfloats z)) "sptrapz")
  /\ zquad ty tz g y (Some z) "boxcount" = quad g (A2 (mfloats y)) (Some (mfloats z)) "boxcount".
Proof. intros ty tz g y z Wy Wz. split; [intros; now apply zquad_exact|reflexivity]. Qed.
Print Assumptions C139_quad.
Theorem C139_quad_everywhere : forall ty tz g y nc, (0 < bits ty)%Z -> shaped (g_nlat g) nc y ->
  ((forall i j, (S i < g_nlat g)%nat -> (j < nc)%nat -> fits ty (zget y (S i) j - zget y i j)) ->
     zquad ty tz g y None "sptrapz" = quad g (A2 (mfloats y)) None "sptrapz")
  /\ zquad ty tz g y None "boxcount" = quad g (A2 (mfloats y)) None "boxcount".
Proof.
  intros ty tz g y nc W Sy. split; [|reflexivity]. intros H. unfold zquad, quad. now rewrite (zquad_none ty tz g y "sptrapz" nc W Sy H).
Qed.
Print Assumptions C139_quad_everywhere.
(** In half of the range of a signed type everything is as with floats. *)
Theorem C139_quad_half : forall w g y z nc, (1 < w)%Z -> (0 < g_nlat g)%nat -> shaped (g_nlat g) nc y -> shaped (g_nlat g) nc z ->
  Forall (Forall (half w)) y -> Forall (Forall (half w)) z ->
  zquad (Signed w) (Signed w) g y (Some z) "sptrapz" = quad g (A2 (mfloats y)) (Some (mfloats z)) "sptrapz"
  /\ zquad (Signed w) (Signed w) g y None "sptrapz" = quad g (A2 (mfloats y)) None "sptrapz".
Proof.
  intros w g y z nc W Hn Sy Sz Hy Hz. assert (W' : (0 < bits (Signed w))%Z) by (cbn; lia). split.
  - apply (C139_quad (Signed w) (Signed w) g y z W' W'). intros i j Hi Hj. rewrite (zncols_shaped _ _ _ Hn Sy) in Hj. rewrite (proj1 Sy) in Hi.
    split; [|intros _]; apply half_fits; auto; apply (zget_In (half w) _ (g_nlat g) nc); auto; lia.
  - apply (C139_quad_everywhere (Signed w) (Signed w) g y nc W' Sy). intros i j Hi Hj.
    apply half_fits; auto; apply (zget_In (half w) _ (g_nlat g) nc); auto; lia.
Qed.
Print Assumptions C139_quad_half.
(** Otherwise not: 8-bit unsigned integers that decrease by one. *)
Definition stepmat : zmat := ((1 :: nil) :: (0 :: nil) :: (0 :: nil) :: nil)%Z.
Theorem C139_quad_refuted : exists g, mk_grid 90 1 0 None = Ok g /\ all_fit (Unsigned 8) stepmat /\ shaped (g_nlat g) 1 stepmat
  /\ quad g (A2 (mfloats stepmat)) None "sptrapz" = Ok (PI / 2 - 1)
  /\ zquad (Unsigned 8) (Unsigned 8) g stepmat None "sptrapz" = Ok (PI / 2 + 255).
Proof.
  pose proof PI_RGT_0 as HP.
  exists (gridA 1). split; [apply gridA_ok; lra|]. split; [repeat constructor; cbn; lia|]. split; [now repeat constructor|].
  assert (D90 : deg2rad 90 = PI / 2) by (unfold deg2rad; field).
  assert (DM : deg2rad (-90) = - (PI / 2)) by (unfold deg2rad; field).
  assert (D0 : deg2rad 0 = 0) by (unfold deg2rad; field).
  assert (P : g_phi (gridA 1) = (PI / 2 :: 0 :: - (PI / 2) :: nil)) by (unfold g_phi; rewrite gridA_lat; cbn [map]; now rewrite D90, DM, D0).
  assert (Q : Rleb 0 1 = true) by (apply Rleb_true; lra).
  split.
  - unfold quad, quad_meridional. rewrite P. cbn. unfold col_trapz, seg_trapz. cbn. rewrite Q. cbn. unfold g_dlam, g_dlon. cbn [g_res gridA]. rewrite D90.
    rewrite sin_neg, cos_neg, sin_PI2, cos_PI2, sin_0, cos_0. f_equal. field. lra.
  - unfold zquad, zquad_meridional. rewrite P. cbn. unfold zcol_trapz, zseg_trapz. cbn. unfold g_dlam, g_dlon. cbn [g_res gridA]. rewrite D90.
    rewrite sin_neg, cos_neg, sin_PI2, cos_PI2, sin_0, cos_0. f_equal. field. lra.
Qed.
Print Assumptions C139_quad_refuted.

(** ** Zonalization *)
(** A number of levels: as with floats if the range of values fits into the type,
    which is always the case for unsigned types. *)
Theorem C139_levels : forall t g field n qd, (0 < bits t)%Z ->
  (fits t (zmax field - zmin field) -> zonalize_number t g field n qd = zonalize_contours g (mfloats field) (levels_of n) qd)
  /\ (forall w, t = Unsigned w -> all_fit t field -> zonalize_number t g field n qd = zonalize_contours g (mfloats field) (levels_of n) qd).
Proof.
  intros t g field n qd W. split; [intros; now apply number_exact|]. intros w -> H. apply number_exact; [exact W|].
  destruct (extremes_fit (Unsigned w) field W H) as [L [A B]]. cbn in *. lia.
Qed.
Print Assumptions C139_levels.
(** Otherwise the levels decrease, and the larger the range of the values, the
    closer they are to its middle. *)
Theorem C139_levels_signed : forall w g field n qd q y, (0 < w)%Z -> all_fit (Signed w) field -> (2 ^ (w - 1) <= zmax field - zmin field)%Z ->
  zonalize_number (Signed w) g field n qd = Ok (q, y) ->
  (forall j k, (j < k < List.length q)%nat -> nth k q 0 < nth j q 0)
  /\ forall x, In x q -> Rabs (x - (mmin (mfloats field) + mmax (mfloats field)) / 2) < (IZR (2 ^ w) - (mmax (mfloats field) - mmin (mfloats field))) / 2.
Proof.
  intros w g field n qd q y W H D E. destruct (extremes_fit (Signed w) field W H) as [L [A B]]. rewrite zmin_R, zmax_R.
  unfold zonalize_number in E. destruct (_ || _); [discriminate|]. set (k := match n with None => _ | Some n => _ end) in E.
  destruct (levels_turned w (zmin field) (zmax field) k W A B D) as [L1 [L2 L3]].
  unfold zonalize_contours in E. destruct (_ || _); [discriminate|]. cbn [zonalize_levels] in E.
  assert (Eq : q = zauto_levels (Signed w) (zmin field) (zmax field) k).
  { destruct (zauto_levels (Signed w) (zmin field) (zmax field) k); [discriminate|]. destruct (res_map _ _); [|discriminate]. cbn [bind equivalent_latitude] in E. now injection E as <- _. }
  rewrite Eq. split; [rewrite L1; exact L2|exact L3].
Qed.
Print Assumptions C139_levels_signed.
(** Integer levels: as with floats in half of the range of a signed type. *)
Theorem C139_integer_levels : forall w g field levels qd nc, (1 < w)%Z -> (0 < g_nlat g)%nat -> shaped (g_nlat g) nc field ->
  Forall (Forall (half w)) field -> Forall (half w) levels ->
  zonalize_integers (Signed w) g field levels qd = zonalize_contours g (mfloats field) (LArr (floats levels)) qd.
Proof. exact integers_exact. Qed.
Print Assumptions C139_integer_levels.
(** But with unsigned types, values below a level are not recognized: every level
    is assigned to the South Pole, whatever the field. *)
Theorem C139_integer_levels_unsigned : forall w res rs om nt g field levels qd nc, (0 < w)%Z -> mk_grid res rs om nt = Ok g -> is_integer (360 / res) ->
  known_method qd -> (0 < nc <= g_nlon g)%nat -> shaped (g_nlat g) nc field -> levels <> [] ->
  zonalize_integers (Unsigned w) g field levels qd = Ok (floats levels, repeat (-90) (List.length levels)).
Proof. exact unsigned_contours. Qed.
Print Assumptions C139_integer_levels_unsigned.

(** ** Examples *)
Definition hill : zmat := ((3 :: 3 :: nil) :: (-2 :: 1 :: nil) :: (-100 :: 100 :: nil) :: nil)%Z.
Example C139_hill : all_fit (Signed 8) hill /\ shaped 3 2 hill /\ (2 ^ (8 - 1) <= zmax hill - zmin hill)%Z
  /\ ~ fits (Signed 8) (zmax hill - zmin hill) /\ fits (Signed 16) (zmax hill - zmin hill) /\ Forall (Forall (half 16)) hill.
Proof. repeat split; try (repeat constructor; cbn; lia); cbn; lia. Qed.
Example C139_order : is_order ONone 12 /\ (largest_sum 12 * 200 < 2 ^ (16 - 1))%Z.
Proof. split; [right; auto|]. unfold largest_sum. destruct (Req_EM_T 12 2); [lra|lia]. Qed.
Example C139_remains : remains (Signed 8) 200 (-56) /\ remains (Unsigned 8) (-1) 255.
Proof. split; (split; [cbn; lia|]); [exists (-1)%Z|exists 1%Z]; reflexivity. Qed.
Example C139_unsigned_levels : exists g, mk_grid 90 1 0 None = Ok g /\ is_integer (360 / 90) /\ shaped (g_nlat g) 1 stepmat
  /\ zonalize_integers (Unsigned 8) g stepmat (1 :: 200 :: nil)%Z "sptrapz" = Ok (1 :: 200 :: nil, -90 :: -90 :: nil).
Proof.
  exists (gridA 1). assert (H : mk_grid 90 1 0 None = Ok (gridA 1)) by (apply gridA_ok; lra). assert (I : is_integer (360 / 90)) by (exists 4%Z; lra).
  split; [exact H|]. split; [exact I|]. assert (S1 : shaped (g_nlat (gridA 1)) 1 stepmat) by now repeat constructor. split; [exact S1|].
  apply (C139_integer_levels_unsigned 8 90 1 0 None (gridA 1) stepmat (1 :: 200 :: nil)%Z "sptrapz" 1); auto; [lia|now right|cbn; lia|discriminate].
Qed.
