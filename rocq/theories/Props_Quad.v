(** Quadrature, equivalent latitude, zonalization and meridional interpolation
    (C09-C16, C87). *)
From Coq Require Export String.
From Verif Require Import Base Model_Grid Model_Region Model_Quad Spec_Grid Spec_Region Spec_Quad Spec_Interp.
From Verif Require Import Proofs_Base Proofs_Grid Proofs_Region Proofs_Quad Proofs_Zonalize Proofs_Interp Proofs_Box.
From Coquelicot Require Import Coquelicot.
From Coq Require Import Lia Lra.
Open Scope R_scope.

(** C09: the sptrapz quadrature of every column is the integral of the
    piecewise-linear interpolants, exactly. *)
Theorem C09_sptrapz_exact : forall res rs om nt g, mk_grid res rs om nt = Ok g ->
  forall nc y z, (nc <= g_nlon g)%nat -> shaped (g_nlat g) nc y -> shaped (g_nlat g) nc z ->
  exists q, quad_meridional g (A2 y) (Some z) "sptrapz" = Ok q /\ length q = nc
    /\ forall j, (j < nc)%nat -> forall Y Z,
         pl_interpolant (g_phi g) (mcol y j) Y -> pl_interpolant (g_phi g) (mcol z j) Z ->
         is_RInt (masked rs Y Z) (- (PI / 2)) (PI / 2) (nth j q 0).
Proof. exact sptrapz_exact. Qed.
Print Assumptions C09_sptrapz_exact.

Theorem C09_sptrapz_exact_no_domain : forall res rs om nt g, mk_grid res rs om nt = Ok g ->
  forall nc y, (nc <= g_nlon g)%nat -> shaped (g_nlat g) nc y ->
  exists q, quad_meridional g (A2 y) None "sptrapz" = Ok q /\ length q = nc
    /\ forall j, (j < nc)%nat -> forall Y, pl_interpolant (g_phi g) (mcol y j) Y ->
         is_RInt (fun t => rs * Y t * cos t) (- (PI / 2)) (PI / 2) (nth j q 0).
Proof. exact sptrapz_exact_everywhere. Qed.
Print Assumptions C09_sptrapz_exact_no_domain.

(** the interpolants of C09 exist for all data *)
Theorem C09_interpolants_exist : forall res rs om nt g, mk_grid res rs om nt = Ok g ->
  forall nc y j, shaped (g_nlat g) nc y -> exists Y, pl_interpolant (g_phi g) (mcol y j) Y.
Proof. exact interpolants_exist. Qed.
Print Assumptions C09_interpolants_exist.

(** a field that is 1 everywhere with the domain boundary at the equator *)
Example C09_nonvacuous : exists g y z, mk_grid 90 1 0 None = Ok g
  /\ y = mat_of 3 1 (fun _ _ => 1) /\ z = mat_of 3 1 (fun i _ => 1 - INR i)
  /\ shaped (g_nlat g) 1 y /\ shaped (g_nlat g) 1 z
  /\ quad_meridional g (A2 y) (Some z) "sptrapz" = Ok (1 :: nil).
Proof. exact quad_example. Qed.

(** C87: the boxcount quadrature is the integral of the step functions that
    take everywhere the value of the nearest gridpoint. *)
Theorem C87_boxcount_exact : forall res rs om nt g, mk_grid res rs om nt = Ok g ->
  forall nc y z, (nc <= g_nlon g)%nat -> shaped (g_nlat g) nc y -> shaped (g_nlat g) nc z ->
  exists q, quad_meridional g (A2 y) (Some z) "boxcount" = Ok q /\ length q = nc
    /\ forall j, (j < nc)%nat -> forall Y Z,
         nearest_step (g_phi g) (mcol y j) Y -> nearest_step (g_phi g) (mcol z j) Z ->
         is_RInt (masked rs Y Z) (- (PI / 2)) (PI / 2) (nth j q 0).
Proof. exact boxcount_exact. Qed.
Print Assumptions C87_boxcount_exact.

Theorem C87_step_functions_exist : forall g y, exists Y, nearest_step (g_phi g) y Y.
Proof. exact nearest_exists. Qed.
Print Assumptions C87_step_functions_exist.

Example C87_nonvacuous : exists g, mk_grid 90 1 0 None = Ok g
  /\ shaped (g_nlat g) 2 (mat_of 3 2 (fun i j => INR i)) /\ shaped (g_nlat g) 2 (mat_of 3 2 (fun i j => 1 - INR j)).
Proof. exists (gridA 1). split; [apply gridA_ok; lra|]. split; apply shaped_mat_of. Qed.

(** C10: a constant integrates to constant times surface exactly when 360/res
    is an integer. *)
Theorem C10_surface_partial : forall res rs om nt g, mk_grid res rs om nt = Ok g ->
  forall m c, known_method m -> c <> 0 ->
  (quad g (A2 (mat_of (g_nlat g) (g_nlon g) (fun _ _ => c))) None m = Ok (c * (4 * PI * (rs * rs)))
   <-> is_integer (360 / res)).
Proof. exact quad_const_iff. Qed.
Print Assumptions C10_surface_partial.

(** C10 in general: the result is off by the factor nlon*res/360. *)
Theorem C10_surface_factor : forall res rs om nt g, mk_grid res rs om nt = Ok g ->
  forall m c, known_method m ->
  quad g (A2 (mat_of (g_nlat g) (g_nlon g) (fun _ _ => c))) None m
  = Ok (c * (4 * PI * (rs * rs)) * (INR (g_nlon g) * res / 360)).
Proof. exact quad_const. Qed.
Print Assumptions C10_surface_factor.

Theorem C10_surface_refuted : exists res rs om g, mk_grid res rs om None = Ok g
  /\ forall m, known_method m -> exists a,
       quad g (A2 (mat_of (g_nlat g) (g_nlon g) (fun _ _ => 1))) None m = Ok a
       /\ a < 4 * PI * (rs * rs).
Proof. exact surface_refuted_lemma. Qed.
Print Assumptions C10_surface_refuted.

Example C10_nonvacuous : is_integer (360 / 90) /\ ~ is_integer (360 / 7)
  /\ (exists g, mk_grid 90 1 0 None = Ok g) /\ known_method "boxcount" /\ known_method "sptrapz".
Proof.
  split; [exists 4%Z; lra|]. split; [apply not_int_360_7|].
  split; [exists (gridA 1); apply gridA_ok; lra|]. split; [now left|now right].
Qed.

(** C11 *)
Theorem C11_linear : forall res rs om nt g, mk_grid res rs om nt = Ok g ->
  forall m nc y1 y2 z a b, known_method m -> (nc <= g_nlon g)%nat ->
  shaped (g_nlat g) nc y1 -> shaped (g_nlat g) nc y2 -> shaped (g_nlat g) nc z ->
  exists q1 q2, quad_meridional g (A2 y1) (Some z) m = Ok q1 /\ quad_meridional g (A2 y2) (Some z) m = Ok q2
    /\ quad_meridional g (A2 (madd (mscale a y1) (mscale b y2))) (Some z) m
       = Ok (vadd (vscale a q1) (vscale b q2)).
Proof. exact quadm_linear. Qed.
Print Assumptions C11_linear.

Theorem C11_monotone_field : forall res rs om nt g, mk_grid res rs om nt = Ok g ->
  forall m nc y1 y2 z, known_method m -> (nc <= g_nlon g)%nat ->
  shaped (g_nlat g) nc y1 -> shaped (g_nlat g) nc y2 -> shaped (g_nlat g) nc z ->
  (forall i j, (i < g_nlat g)%nat -> (j < nc)%nat -> mget y1 i j <= mget y2 i j) ->
  exists q1 q2, quad_meridional g (A2 y1) (Some z) m = Ok q1 /\ quad_meridional g (A2 y2) (Some z) m = Ok q2
    /\ length q1 = nc /\ length q2 = nc /\ forall j, (j < nc)%nat -> nth j q1 0 <= nth j q2 0.
Proof. exact quadm_mono_field. Qed.
Print Assumptions C11_monotone_field.

Theorem C11_monotone_domain : forall res rs om nt g, mk_grid res rs om nt = Ok g ->
  forall m nc y z1 z2, known_method m -> (nc <= g_nlon g)%nat ->
  shaped (g_nlat g) nc y -> shaped (g_nlat g) nc z1 -> shaped (g_nlat g) nc z2 ->
  (forall i j, (i < g_nlat g)%nat -> (j < nc)%nat -> 0 <= mget y i j) ->
  (forall i j, (i < g_nlat g)%nat -> (j < nc)%nat -> mget z1 i j <= mget z2 i j) ->
  exists q1 q2, quad_meridional g (A2 y) (Some z1) m = Ok q1 /\ quad_meridional g (A2 y) (Some z2) m = Ok q2
    /\ length q1 = nc /\ length q2 = nc /\ forall j, (j < nc)%nat -> nth j q1 0 <= nth j q2 0.
Proof. exact quadm_mono_domain. Qed.
Print Assumptions C11_monotone_domain.

Theorem C11_split : forall res rs om nt g, mk_grid res rs om nt = Ok g ->
  forall m nc y z, known_method m -> (nc <= g_nlon g)%nat ->
  shaped (g_nlat g) nc y -> shaped (g_nlat g) nc z ->
  (forall i j, (i < g_nlat g)%nat -> (j < nc)%nat -> mget z i j <> 0) ->
  exists qp qn, quad_meridional g (A2 y) (Some z) m = Ok qp
    /\ quad_meridional g (A2 y) (Some (mscale (-1) z)) m = Ok qn
    /\ quad_meridional g (A2 y) None m = Ok (vadd qp qn).
Proof. exact quadm_split. Qed.
Print Assumptions C11_split.

Example C11_nonvacuous : exists g y z, mk_grid 90 1 0 None = Ok g
  /\ shaped (g_nlat g) 2 y /\ shaped (g_nlat g) 2 z
  /\ (forall i j, (i < g_nlat g)%nat -> (j < 2)%nat -> 0 <= mget y i j <= mget (mscale 2 y) i j)
  /\ (forall i j, (i < g_nlat g)%nat -> (j < 2)%nat -> mget z i j <> 0)
  /\ mget z 0 0 < 0 /\ 0 < mget z 2 1.
Proof.
  exists (gridA 1), (mat_of 3 2 (fun i j => INR (i + j))), (mat_of 3 2 (fun i j => INR (i + j) - / 2)).
  split; [apply gridA_ok; lra|]. split; [apply shaped_mat_of|]. split; [apply shaped_mat_of|].
  assert (S : shaped 3 2 (mat_of 3 2 (fun i j => INR (i + j)))) by apply shaped_mat_of.
  split; [|split; [|split]].
  - intros i j Hi Hj. rewrite (mget_mscale 3 2) by auto. rewrite !mget_mat_of by auto. pose proof (pos_INR (i + j)). lra.
  - intros i j Hi Hj. rewrite mget_mat_of by auto. destruct (i + j)%nat; [simpl; lra|].
    rewrite S_INR. pose proof (pos_INR n). lra.
  - rewrite mget_mat_of by lia. simpl. lra.
  - rewrite mget_mat_of by lia. simpl. lra.
Qed.

(** C12, array input *)
Theorem C12_equivalent_latitude_partial : forall res rs om nt g, mk_grid res rs om nt = Ok g ->
  forall areas, exists y, equivalent_latitude g (AArr areas) = Ok y /\ length y = length areas
  /\ (forall k, (k < length areas)%nat ->
        -90 <= nth k y 0 <= 90
        /\ (0 <= nth k areas 0 <= 4 * PI * (rs * rs) -> cap_area rs (deg2rad (nth k y 0)) = nth k areas 0)
        /\ (nth k areas 0 <= 0 -> nth k y 0 = 90)
        /\ (4 * PI * (rs * rs) <= nth k areas 0 -> nth k y 0 = -90))
  /\ (forall k l, (k < length areas)%nat -> (l < length areas)%nat ->
        nth k areas 0 <= nth l areas 0 -> nth l y 0 <= nth k y 0).
Proof. exact eqlat_lemma. Qed.
Print Assumptions C12_equivalent_latitude_partial.

(** the documented number input raises *)
Theorem C12_number_refuted : forall g a, equivalent_latitude g (ANum a) = Err TypeError.
Proof. reflexivity. Qed.
Print Assumptions C12_number_refuted.

Example C12_nonvacuous : exists g, mk_grid 90 1 0 None = Ok g
  /\ equivalent_latitude g (AArr (-3 :: 2 * PI :: 100 :: nil)) = Ok (90 :: 0 :: -90 :: nil).
Proof. exact eqlat_example. Qed.

(** C13 *)
Theorem C13_zonalize_preserves_area : forall res rs om nt g, mk_grid res rs om nt = Ok g ->
  forall nc f levels qd, known_method qd -> (0 < nc <= g_nlon g)%nat -> shaped (g_nlat g) nc f ->
  zonalize_levels g (mmin f) (mmax f) levels qd <> [] ->
  exists q y, zonalize_contours g f levels qd = Ok (q, y) /\ length y = length q
    /\ (match levels with LArr v => q = v | _ => True end)
    /\ (forall k, (k < length q)%nat -> exists a,
          quad g (A2 (mat_of (g_nlat g) nc (fun _ _ => 1)))
               (Some (mat_of (g_nlat g) nc (fun i j => mget f i j - nth k q 0))) qd = Ok a
          /\ -90 <= nth k y 0 <= 90
          /\ cap_area rs (deg2rad (nth k y 0)) = a * (INR (g_nlon g) / INR nc))
    /\ (forall k l, (k < length q)%nat -> (l < length q)%nat -> nth k q 0 <= nth l q 0 -> nth k y 0 <= nth l y 0).
Proof. exact zonalize_area_lemma. Qed.
Print Assumptions C13_zonalize_preserves_area.

Example C13_nonvacuous : exists g f, mk_grid 90 1 0 None = Ok g /\ shaped (g_nlat g) 2 f
  /\ (0 < 2 <= g_nlon g)%nat /\ mget f 0 0 <> mget f 1 0
  /\ zonalize_levels g (mmin f) (mmax f) (LArr (1 :: 0 :: nil)) "boxcount" <> [].
Proof.
  exists (gridA 1), (mat_of 3 2 (fun i j => INR i)). split; [apply gridA_ok; lra|].
  split; [apply shaped_mat_of|]. split; [simpl; lia|]. split; [|easy].
  rewrite !mget_mat_of by lia. simpl. lra.
Qed.

(** C14, for resolutions dividing the circle *)
Theorem C14_symmetric_in_place_partial : forall res rs om nt g, mk_grid res rs om nt = Ok g ->
  forall nc p P qs, (0 < nc <= g_nlon g)%nat ->
  (forall i, (S i < g_nlat g)%nat -> p (S i) < p i) ->
  pl_interpolant (g_phi g) (tab (g_nlat g) p) P ->
  is_integer (360 / res) -> qs <> [] ->
  exists y, zonalize_contours g (mat_of (g_nlat g) nc (fun i _ => p i)) (LArr qs) "sptrapz" = Ok (qs, y)
    /\ length y = length qs
    /\ forall k, (k < length qs)%nat -> -90 <= nth k y 0 <= 90 /\
         (p (g_nlat g - 1)%nat <= nth k qs 0 <= p 0%nat -> P (deg2rad (nth k y 0)) = nth k qs 0).
Proof. exact symmetric_in_place. Qed.
Print Assumptions C14_symmetric_in_place_partial.

Theorem C14_symmetric_in_place_refuted : exists g p q y, mk_grid 7 1 1 None = Ok g
  /\ (forall i, (S i < g_nlat g)%nat -> p (S i) < p i)
  /\ p (g_nlat g - 1)%nat <= q <= p 0%nat
  /\ zonalize_contours g (mat_of (g_nlat g) (g_nlon g) (fun i _ => p i)) (LArr (q :: nil)) "sptrapz"
     = Ok (q :: nil, y :: nil)
  /\ (exists P, pl_interpolant (g_phi g) (tab (g_nlat g) p) P)
  /\ forall P, pl_interpolant (g_phi g) (tab (g_nlat g) p) P -> P (deg2rad y) <> q.
Proof. exact symmetric_refuted_lemma. Qed.
Print Assumptions C14_symmetric_in_place_refuted.

Example C14_nonvacuous : exists g P, mk_grid 90 1 0 None = Ok g
  /\ (forall i, (S i < g_nlat g)%nat -> - INR (S i) < - INR i)
  /\ pl_interpolant (g_phi g) (tab (g_nlat g) (fun i => - INR i)) P /\ is_integer (360 / 90).
Proof.
  destruct (interpolant_exists _ _ _ _ _ (gridA_ok 1 ltac:(lra)) (fun i => - INR i)) as [P HP].
  exists (gridA 1), P. split; [apply gridA_ok; lra|]. split; [intros; rewrite S_INR; lra|].
  split; [exact HP|]. exists 4%Z. lra.
Qed.

(** C15 *)
Theorem C15_automatic_levels : forall res rs om nt g, mk_grid res rs om nt = Ok g ->
  forall nc f lo hi qd, known_method qd -> (0 < nc <= g_nlon g)%nat -> shaped (g_nlat g) nc f ->
  extremes (g_nlat g) nc f lo hi -> lo < hi ->
  (forall levels n,
    (levels = LInt (Z.of_nat n) \/ (levels = LNone /\ qd = "sptrapz"%string /\ n = g_nlat g)
     \/ (levels = LNone /\ qd = "boxcount"%string /\ n = (2 * g_nlat g)%nat)) -> (0 < n)%nat ->
    exists q y, zonalize_contours g f levels qd = Ok (q, y) /\ length q = n /\ strictly_increasing q
      /\ (forall x, In x q -> lo < x < hi)
      /\ (forall k, (k < n)%nat -> nth k q 0 + nth (n - 1 - k) q 0 = lo + hi))
  /\ (forall n, (n <= 0)%Z -> zonalize_contours g f (LInt n) qd = Err ValueError).
Proof. exact zonalize_levels_lemma. Qed.
Print Assumptions C15_automatic_levels.

Example C15_nonvacuous : exists g f, mk_grid 90 1 0 None = Ok g /\ shaped (g_nlat g) 2 f
  /\ extremes (g_nlat g) 2 f 0 2.
Proof.
  exists (gridA 1), (mat_of 3 2 (fun i j => INR i)). split; [apply gridA_ok; lra|].
  split; [apply shaped_mat_of|]. split; [|split].
  - intros i j Hi Hj. rewrite mget_mat_of by auto. simpl in Hi. split; [apply pos_INR|].
    destruct i as [|[|[|i]]]; simpl; try lra. lia.
  - exists 0%nat, 0%nat. rewrite mget_mat_of by lia. simpl. repeat split; lia.
  - exists 2%nat, 0%nat. rewrite mget_mat_of by lia. simpl. repeat split; try lia; lra.
Qed.

(** C16, 1D data (also used by zonalize).  [xs] are the latitudes at which the
    interpolant is evaluated. *)
Theorem C16_interpolation_1d_partial : forall lat field pole xs,
  length field = length lat -> within_poles lat -> NoDup lat -> within_poles xs ->
  exists v, interp1d_1d field lat pole xs = Ok v /\ length v = length xs
    /\ forall k, (k < length xs)%nat ->
         no_overshoot lat field pole (nth k v 0)
         /\ (~ In 90 lat -> ~ In (-90) lat -> on_line lat field pole (nth k xs 0) (nth k v 0))
         /\ (forall i, (i < length lat)%nat -> nth i lat 0 = nth k xs 0 -> -90 < nth k xs 0 ->
               nth k v 0 = nth i field 0)
         /\ (nth k xs 0 = 90 -> ~ In 90 lat -> nth k v 0 = fst pole)
         /\ (nth k xs 0 = -90 -> nth k v 0 = snd pole).
Proof. exact interp_1d_lemma. Qed.
Print Assumptions C16_interpolation_1d_partial.

(** C16, 2D data; None is NaN *)
Theorem C16_interpolation_2d_partial : forall nc lat field pole xs,
  (0 < length lat)%nat -> shaped (length lat) nc field -> within_poles lat -> NoDup lat -> within_poles xs ->
  exists v, interp1d_2d field lat pole xs = Ok v /\ length v = length xs
    /\ forall k, (k < length xs)%nat -> length (nth k v []) = nc
    /\ forall j, (j < nc)%nat ->
       let x := nth k xs 0 in let w := nth j (nth k v []) None in
         (w = None <-> x = -90 /\ In (-90) lat)
         /\ (forall r, w = Some r -> no_overshoot lat (mcol field j) pole r
              /\ (~ In 90 lat -> ~ In (-90) lat -> on_line lat (mcol field j) pole x r))
         /\ (x = 90 -> w = Some (fst pole))
         /\ (x = -90 -> ~ In (-90) lat -> w = Some (snd pole)).
Proof. exact interp_2d_lemma. Qed.
Print Assumptions C16_interpolation_2d_partial.

(** Data given at the south pole is ignored (1D) or turned into NaN (2D). *)
Theorem C16_south_pole_data_refuted : exists g,
  mk_grid 90 1 0 None = Ok g
  /\ interpolate_meridional_1d g (1 :: nil) (-90 :: nil) (0, 0) = Ok (0 :: 0 :: 0 :: nil)
  /\ interpolate_meridional_2d g ((1 :: nil) :: nil) (-90 :: nil) (0, 0)
     = Ok ((Some 0 :: nil) :: (Some 0 :: nil) :: (None :: nil) :: nil).
Proof. exact interp_refuted_lemma. Qed.
Print Assumptions C16_south_pole_data_refuted.

Example C16_nonvacuous : within_poles (30 :: 80 :: -20 :: nil) /\ NoDup (30 :: 80 :: -20 :: nil)
  /\ interp1d_1d (5 :: 7 :: 9 :: nil) (30 :: 80 :: -20 :: nil) (0, 0) (30 :: 5 :: nil) = Ok (5 :: 7 :: nil).
Proof. exact interp_example. Qed.

(** C92: which inputs the quadrature accepts, and with which error it refuses
    the others *)
Theorem C92_accepted : forall res rs om nt g, mk_grid res rs om nt = Ok g ->
  forall nr nc y, (0 < nr)%nat -> shaped nr nc y -> forall method,
  ((exists q, quad_meridional g (A2 y) None method = Ok q)
     <-> nr = g_nlat g /\ (method = "boxcount"%string \/ method = "sptrapz"%string /\ (nc <= g_nlon g)%nat))
  /\ (nr <> g_nlat g -> quad_meridional g (A2 y) None method = Err AssertionError)
  /\ (nr = g_nlat g -> method <> "boxcount"%string -> method <> "sptrapz"%string ->
        quad_meridional g (A2 y) None method = Err ValueError)
  /\ (nr = g_nlat g -> (g_nlon g < nc)%nat -> quad_meridional g (A2 y) None "sptrapz" = Err ValueError)
  /\ (forall q, quad_meridional g (A2 y) None method = Ok q -> length q = nc).
Proof. exact quad_accepts. Qed.
Print Assumptions C92_accepted.

(** With a field z for the domain of integration (sptrapz): z must have the shape of y. *)
Theorem C92_domain : forall g nc y zr zc z, (0 < g_nlat g)%nat -> shaped (g_nlat g) nc y -> (0 < zr)%nat -> shaped zr zc z -> (nc <= g_nlon g)%nat ->
  ((exists q, quad_meridional g (A2 y) (Some z) "sptrapz" = Ok q) <-> zr = g_nlat g /\ zc = nc)
  /\ (~ (zr = g_nlat g /\ zc = nc) -> quad_meridional g (A2 y) (Some z) "sptrapz" = Err IndexError).
Proof. exact quad_domain. Qed.
Example C92_domain_example : let y := mat_of 3 4 (fun _ _ => 1) in let z := mat_of 3 1 (fun _ _ => 1) in
  shaped 3 4 y /\ shaped 3 1 z /\ forall g, g_nlat g = 3%nat -> g_nlon g = 4%nat -> quad_meridional g (A2 y) (Some z) "sptrapz" = Err IndexError.
Proof. cbn zeta. split; [apply shaped_mat_of|split; [apply shaped_mat_of|]]. intros g E1 E2.
  refine (proj2 (quad_domain g 4 _ 3 1 _ _ _ _ (shaped_mat_of 3 1 _) _) _); rewrite ?E1, ?E2; try lia. apply shaped_mat_of. Qed.
Print Assumptions C92_domain.
Theorem C92_rank : forall g z method, (forall v, quad_meridional g (A1 v) z method = Err AssertionError)
  /\ quad_meridional g AOther z method = Err AssertionError.
Proof. intros g z method. split; reflexivity. Qed.
Print Assumptions C92_rank.

Example C92_nonvacuous : exists g, mk_grid 90 1 0 None = Ok g
  /\ (exists q, quad_meridional g (A2 (mat_of 3 5 (fun _ _ => 1))) None "boxcount" = Ok q)
  /\ quad_meridional g (A2 (mat_of 3 5 (fun _ _ => 1))) None "sptrapz" = Err ValueError
  /\ quad_meridional g (A2 (mat_of 2 4 (fun _ _ => 1))) None "boxcount" = Err AssertionError.
Proof.
  assert (Hg : mk_grid 90 1 0 None = Ok (mkGrid 90 1 0 4 3 2))
    by (rewrite (mk_grid_Ok 90 1 0 4 2) by (lra || lia); reflexivity).
  exists (mkGrid 90 1 0 4 3 2). split; [exact Hg|].
  destruct (C92_accepted _ _ _ _ _ Hg 3 5 _ ltac:(lia) (shaped_mat_of 3 5 (fun _ _ => 1)) "boxcount") as [A _].
  destruct (C92_accepted _ _ _ _ _ Hg 3 5 _ ltac:(lia) (shaped_mat_of 3 5 (fun _ _ => 1)) "sptrapz") as [_ [_ [_ [B _]]]].
  destruct (C92_accepted _ _ _ _ _ Hg 2 4 _ ltac:(lia) (shaped_mat_of 2 4 (fun _ _ => 1)) "boxcount") as [_ [C _]].
  split; [apply A; cbn; auto|]. split; [apply B; cbn; lia|apply C; cbn; lia].
Qed.
