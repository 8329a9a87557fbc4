(** Machine integers (C139). *)
From Coq Require Export String.
From Verif Require Import Base Model_Grid Model_Region Model_Deriv Model_Quad Model_Machine.
From Verif Require Import Spec_Grid Spec_Quad Spec_Machine Proofs_Base Proofs_Grid Proofs_Region Proofs_Box Proofs_Quad Proofs_Zonalize Proofs_Falwa Proofs_Profile Proofs_Deriv.
From Coq Require Import List Lia Lra ZArith.
Import ListNotations.
Open Scope Z_scope.

(** ** wrap *)
Lemma wrap_remains t x : 0 < bits t -> remains t x (wrap t x).
Proof.
  destruct t as [w|w]; cbn [bits]; intros W; unfold remains, wrap; cbn [fits bits].
  - assert (P : 0 < 2 ^ (w - 1)) by (apply Z.pow_pos_nonneg; lia).
    assert (D : 2 ^ w = 2 * 2 ^ (w - 1)) by (rewrite <- Z.pow_succ_r by lia; f_equal; lia).
    pose proof (Z.mod_pos_bound (x + 2 ^ (w - 1)) (2 ^ w) ltac:(lia)). split; [lia|].
    exists (- ((x + 2 ^ (w - 1)) / 2 ^ w)). pose proof (Z.div_mod (x + 2 ^ (w - 1)) (2 ^ w) ltac:(lia)). lia.
  - assert (P : 0 < 2 ^ w) by (apply Z.pow_pos_nonneg; lia). pose proof (Z.mod_pos_bound x (2 ^ w) P). split; [lia|].
    exists (- (x / 2 ^ w)). pose proof (Z.div_mod x (2 ^ w) ltac:(lia)). lia.
Qed.
Lemma fits_gap t a b k : 0 < bits t -> fits t a -> fits t b -> a = b + k * 2 ^ bits t -> a = b.
Proof.
  intros W A B E. assert (P : 0 < 2 ^ bits t) by (apply Z.pow_pos_nonneg; lia).
  assert (D : - 2 ^ bits t < a - b < 2 ^ bits t).
  { destruct t as [w|w]; cbn [bits fits] in *; [|lia].
    assert (2 ^ w = 2 * 2 ^ (w - 1)) by (rewrite <- Z.pow_succ_r by lia; f_equal; lia). lia. }
  assert (k = 0) by nia. subst k. lia.
Qed.
Lemma remains_unique t x r r' : 0 < bits t -> remains t x r -> remains t x r' -> r = r'.
Proof. intros W [A [k E]] [B [k' E']]. apply (fits_gap t r r' (k - k')); auto. lia. Qed.
Lemma remains_wrap t x r : 0 < bits t -> remains t x r -> wrap t x = r.
Proof. intros W H. exact (remains_unique t x _ _ W (wrap_remains t x W) H). Qed.
Lemma wrap_fits t x : 0 < bits t -> fits t x -> wrap t x = x.
Proof. intros W H. apply remains_wrap; [exact W|]. split; [exact H|]. exists 0. lia. Qed.
Lemma wrap_iff t x : 0 < bits t -> wrap t x = x <-> fits t x.
Proof. intros W. split; [intros <-; apply (wrap_remains t x W)|now apply wrap_fits]. Qed.
(** operations may be wrapped at any time *)
Lemma wrap_shift t x y k : 0 < bits t -> x = y + k * 2 ^ bits t -> wrap t x = wrap t y.
Proof.
  intros W E. apply remains_wrap; [exact W|]. destruct (wrap_remains t y W) as [F [m H]]. split; [exact F|]. exists (m - k). lia.
Qed.
Lemma wrap_eq t x : 0 < bits t -> exists k, wrap t x = x + k * 2 ^ bits t.
Proof. intros W. exact (proj2 (wrap_remains t x W)). Qed.

(** exact values of the stencils *)
Definition xstencil2 (n : nat) (f : nat -> Z) (i : nat) : Z :=
  if Nat.eqb i 0 then - 3 * f 0%nat + 4 * f 1%nat - f 2%nat
  else if Nat.eqb i (n - 1) then f (n - 3)%nat - 4 * f (n - 2)%nat + 3 * f (n - 1)%nat
  else f (i + 1)%nat - f (i - 1)%nat.
Definition xstencil4 (n : nat) (f : nat -> Z) (i : nat) : Z :=
  if Nat.eqb i 0 then
    - 25 * f 0%nat + 48 * f 1%nat - 36 * f 2%nat + 16 * f 3%nat - 3 * f 4%nat
  else if Nat.eqb i 1 then
    - 3 * f 0%nat - 10 * f 1%nat + 18 * f 2%nat - 6 * f 3%nat + f 4%nat
  else if Nat.eqb i (n - 1) then
    3 * f (n - 5)%nat - 16 * f (n - 4)%nat + 36 * f (n - 3)%nat - 48 * f (n - 2)%nat + 25 * f (n - 1)%nat
  else if Nat.eqb i (n - 2) then
    - f (n - 5)%nat + 6 * f (n - 4)%nat - 18 * f (n - 3)%nat + 10 * f (n - 2)%nat + 3 * f (n - 1)%nat
  else f (i - 2)%nat - 8 * f (i - 1)%nat + 8 * f (i + 1)%nat - f (i + 2)%nat.

Lemma shift_add t a b x y : 0 < bits t -> wrap t a = wrap t x -> wrap t b = wrap t y -> wrap t (a + b) = wrap t (x + y).
Proof.
  intros W A B. destruct (wrap_eq t a W) as [k1 E1], (wrap_eq t b W) as [k2 E2], (wrap_eq t x W) as [k3 E3], (wrap_eq t y W) as [k4 E4].
  apply (wrap_shift t _ _ (k3 + k4 - k1 - k2) W). lia.
Qed.
Lemma shift_sub t a b x y : 0 < bits t -> wrap t a = wrap t x -> wrap t b = wrap t y -> wrap t (a - b) = wrap t (x - y).
Proof.
  intros W A B. destruct (wrap_eq t a W) as [k1 E1], (wrap_eq t b W) as [k2 E2], (wrap_eq t x W) as [k3 E3], (wrap_eq t y W) as [k4 E4].
  apply (wrap_shift t _ _ (k3 - k4 - k1 + k2) W). lia.
Qed.
Lemma shift_opp t a x : 0 < bits t -> wrap t a = wrap t x -> wrap t (- a) = wrap t (- x).
Proof. intros W A. rewrite <- (Z.sub_0_l a), <- (Z.sub_0_l x). now apply shift_sub. Qed.
Lemma wrap_wrap t x : 0 < bits t -> wrap t (wrap t x) = wrap t x.
Proof. intros W. apply wrap_fits; [exact W|apply (wrap_remains t x W)]. Qed.
Ltac steps W := repeat first [reflexivity | apply (shift_sub _ _ _ _ _ W) | apply (shift_add _ _ _ _ _ W) | apply (shift_opp _ _ _ W) | rewrite (wrap_wrap _ _ W)].
Lemma zstencil2_eq t n f i : 0 < bits t -> zstencil2 t n f i = wrap t (xstencil2 n f i).
Proof.
  intros W. unfold zstencil2, xstencil2. destruct (Nat.eqb i 0); [|destruct (Nat.eqb i (n - 1))]; steps W.
Qed.
Lemma zstencil4_eq t n f i : 0 < bits t -> zstencil4 t n f i = wrap t (xstencil4 n f i).
Proof.
  intros W. unfold zstencil4, xstencil4.
  destruct (Nat.eqb i 0); [|destruct (Nat.eqb i 1); [|destruct (Nat.eqb i (n - 1)); [|destruct (Nat.eqb i (n - 2))]]]; steps W.
Qed.
Open Scope R_scope.
Lemma xstencil2_R n f i : stencil2 n (fun k => IZR (f k)) i = IZR (xstencil2 n f i).
Proof.
  unfold stencil2, xstencil2. destruct (Nat.eqb i 0); [|destruct (Nat.eqb i (n - 1))]; rewrite ?minus_IZR, ?plus_IZR, ?minus_IZR, ?mult_IZR; reflexivity.
Qed.
Lemma xstencil4_R n f i : stencil4 n (fun k => IZR (f k)) i = IZR (xstencil4 n f i).
Proof.
  unfold stencil4, xstencil4.
  destruct (Nat.eqb i 0); [|destruct (Nat.eqb i 1); [|destruct (Nat.eqb i (n - 1)); [|destruct (Nat.eqb i (n - 2))]]];
    repeat rewrite ?minus_IZR, ?plus_IZR, ?mult_IZR, ?opp_IZR; reflexivity.
Qed.

Lemma nth_floats v k : nth k (floats v) 0 = IZR (nth k v 0%Z).
Proof. unfold floats. change 0 with (IZR 0) at 1. apply map_nth. Qed.
Lemma floats_length v : List.length (floats v) = List.length v.
Proof. apply map_length. Qed.
Lemma mget_floats m i j : mget (mfloats m) i j = IZR (zget m i j).
Proof.
  unfold mget, zget, mfloats. change (@nil R) with (floats []). rewrite map_nth. apply nth_floats.
Qed.
Lemma mfloats_length m : List.length (mfloats m) = List.length m.
Proof. apply map_length. Qed.
Lemma mfloats_ncols m : ncols (mfloats m) = zncols m.
Proof. destruct m; cbn; [reflexivity|apply map_length]. Qed.

Lemma stencil2_ext n f f' i : (forall k, f k = f' k) -> stencil2 n f i = stencil2 n f' i.
Proof. intros E. unfold stencil2. now rewrite !E. Qed.
Lemma stencil4_ext n f f' i : (forall k, f k = f' k) -> stencil4 n f i = stencil4 n f' i.
Proof. intros E. unfold stencil4. now rewrite !E. Qed.
Lemma tab_hits {A} n (f : nat -> A) i d : (i < n)%nat -> nth i (tab n f) d = f i.
Proof. intros. now rewrite tab_nth. Qed.
Lemma derivative_form w g f a c r : (0 < w)%Z -> is_order a c -> derivative_meridional g (zfloats f) a = r ->
  match f with
  | Z1 v => (exists e, r = Err e /\ derivative_signed w g f a = Err e)
      \/ exists N : nat -> Z, r = Ok (A1 (tab (List.length v) (fun i => IZR (N i) / c / g_dphi g)))
         /\ derivative_signed w g f a = Ok (A1 (tab (List.length v) (fun i => IZR (wrap (Signed w) (N i)) / c / g_dphi g)))
         /\ forall i, N i = if is_pole (List.length v) i then 0%Z
              else (if Reqb c 2 then xstencil2 else xstencil4) (List.length v) (fun k => nth k v 0%Z) i
  | Z2 m => (exists e, r = Err e /\ derivative_signed w g f a = Err e)
      \/ exists N : nat -> nat -> Z, r = Ok (A2 (mat_of (List.length m) (zncols m) (fun i j => IZR (N i j) / c / g_dphi g)))
         /\ derivative_signed w g f a = Ok (A2 (mat_of (List.length m) (zncols m) (fun i j => IZR (wrap (Signed w) (N i j)) / c / g_dphi g)))
         /\ forall i j, N i j = (if Reqb c 2 then xstencil2 else xstencil4) (List.length m) (fun k => zget m k j) i
  end.
Proof.
  intros W Ha <-. assert (W0 : wrap (Signed w) 0 = 0%Z) by (apply wrap_fits; [exact W|cbn; pose proof (Z.pow_pos_nonneg 2 (w - 1)); lia]).
  assert (R22 : Reqb 2 2 = true) by (unfold Reqb; destruct (Req_EM_T 2 2); [reflexivity|lra]).
  assert (R42 : Reqb 4 2 = false) by (unfold Reqb; destruct (Req_EM_T 4 2); [lra|reflexivity]).
  assert (R44 : Reqb 4 4 = true) by (unfold Reqb; destruct (Req_EM_T 4 4); [reflexivity|lra]).
  assert (RC2 : Reqb 12 2 = false) by (unfold Reqb; destruct (Req_EM_T 12 2); [lra|reflexivity]).
  destruct f as [v|m]; cbn [zfloats derivative_meridional derivative_signed]; rewrite ?floats_length, ?mfloats_length, ?mfloats_ncols.
  - destruct Ha as [[-> ->]|[Ha ->]].
    + rewrite R22. unfold passert. destruct (Nat.leb 3 (g_nlat g)); [|left; eauto]. right.
      exists (fun i => if is_pole (List.length v) i then 0%Z else xstencil2 (List.length v) (fun k => nth k v 0%Z) i). split; [|split; [|reflexivity]].
      * do 2 f_equal. apply tab_ext. intros i Hi. destruct (is_pole (List.length v) i); [reflexivity|].
        now rewrite <- xstencil2_R, (stencil2_ext _ _ _ _ (nth_floats v)).
      * do 2 f_equal. apply tab_ext. intros i Hi. destruct (is_pole (List.length v) i); [now rewrite W0|]. now rewrite zstencil2_eq.
    + replace (match a with ONum x => Reqb x 2 | _ => false end) with false by (destruct Ha as [->| ->]; congruence).
      replace (match a with ONum x => Reqb x 4 | ONone => true | OOther => false end) with true by (destruct Ha as [->| ->]; congruence).
      rewrite RC2. unfold passert. destruct (Nat.leb 5 (g_nlat g)); [|left; eauto]. destruct (Nat.ltb (List.length v) 5); [left; eauto|]. right.
      exists (fun i => if is_pole (List.length v) i then 0%Z else xstencil4 (List.length v) (fun k => nth k v 0%Z) i). split; [|split; [|reflexivity]].
      * do 2 f_equal. apply tab_ext. intros i Hi. destruct (is_pole (List.length v) i); [reflexivity|].
        now rewrite <- xstencil4_R, (stencil4_ext _ _ _ _ (nth_floats v)).
      * do 2 f_equal. apply tab_ext. intros i Hi. destruct (is_pole (List.length v) i); [now rewrite W0|]. now rewrite zstencil4_eq.
  - destruct Ha as [[-> ->]|[Ha ->]].
    + rewrite R22. unfold passert. destruct (Nat.leb 3 (g_nlat g)); [|left; eauto]. destruct (Nat.ltb (List.length m) 3); [left; eauto|]. right.
      exists (fun i j => xstencil2 (List.length m) (fun k => zget m k j) i). split; [|split; [|reflexivity]].
      * do 2 f_equal. apply tab_ext. intros i Hi. apply tab_ext. intros j Hj.
        now rewrite <- xstencil2_R, (stencil2_ext _ _ _ _ (fun k => mget_floats m k j)).
      * do 2 f_equal. apply tab_ext. intros i Hi. apply tab_ext. intros j Hj. now rewrite zstencil2_eq.
    + replace (match a with ONum x => Reqb x 2 | _ => false end) with false by (destruct Ha as [->| ->]; congruence).
      replace (match a with ONum x => Reqb x 4 | ONone => true | OOther => false end) with true by (destruct Ha as [->| ->]; congruence).
      rewrite RC2. unfold passert. destruct (Nat.leb 5 (g_nlat g)); [|left; eauto]. destruct (Nat.ltb (List.length m) 5); [left; eauto|]. right.
      exists (fun i j => xstencil4 (List.length m) (fun k => zget m k j) i). split; [|split; [|reflexivity]].
      * do 2 f_equal. apply tab_ext. intros i Hi. apply tab_ext. intros j Hj.
        now rewrite <- xstencil4_R, (stencil4_ext _ _ _ _ (fun k => mget_floats m k j)).
      * do 2 f_equal. apply tab_ext. intros i Hi. apply tab_ext. intros j Hj. now rewrite zstencil4_eq.
Qed.

(** ** Quadrature *)
Lemma leb_IZR z : Rleb 0 (IZR z) = Z.leb 0 z.
Proof.
  unfold Rleb. destruct (Rle_dec 0 (IZR z)) as [H|H]; symmetry.
  - apply Z.leb_le. now apply le_IZR.
  - apply Z.leb_gt. apply lt_IZR. lra.
Qed.
Lemma zseg_exact ty tz rs xl yl zl xr yr zr : (0 < bits ty)%Z -> (0 < bits tz)%Z -> tame ty tz yl zl yr zr ->
  zseg_trapz ty tz rs (xl, (yl, zl)) (xr, (yr, zr)) = seg_trapz rs (xl, (IZR yl, IZR zl)) (xr, (IZR yr, IZR zr)).
Proof.
  intros Wy Wz [Fy Fz]. unfold zseg_trapz, seg_trapz. cbn [fst snd]. rewrite !leb_IZR, (wrap_fits ty _ Wy Fy), minus_IZR.
  destruct (Z.leb_spec 0 zl), (Z.leb_spec 0 zr); cbn [negb andb orb]; try reflexivity.
  - rewrite (wrap_fits tz _ Wz), minus_IZR by (apply Fz; lia). reflexivity.
  - rewrite (wrap_fits tz _ Wz), minus_IZR by (apply Fz; lia). reflexivity.
Qed.
Lemma zcol_length m j : List.length (zcol m j) = List.length m.
Proof. apply map_length. Qed.
Lemma zcol_nth m j i : nth i (zcol m j) 0%Z = zget m i j.
Proof.
  unfold zcol, zget. destruct (Nat.lt_ge_cases i (List.length m)) as [H|H].
  - now rewrite (nth_map_lt _ _ _ [] 0%Z).
  - rewrite (nth_overflow (map _ m)) by (now rewrite map_length). rewrite (nth_overflow m) by exact H. now destruct j.
Qed.
Lemma zcol_tab m j : zcol m j = tab (List.length m) (fun i => zget m i j).
Proof.
  apply (list_eq_nth 0%Z); [now rewrite zcol_length, tab_length|]. intros i H. rewrite zcol_length in H. now rewrite zcol_nth, tab_nth.
Qed.
Lemma mcol_floats m j : mcol (mfloats m) j = tab (List.length m) (fun i => IZR (zget m i j)).
Proof.
  apply (list_eq_nth 0); [now rewrite mcol_length, mfloats_length, tab_length|]. intros i H. rewrite mcol_length, mfloats_length in H.
  rewrite tab_nth by exact H. rewrite mcol_nth by (now rewrite mfloats_length). apply mget_floats.
Qed.
Lemma zcol_exact ty tz rs x (y z : zmat) j : (0 < bits ty)%Z -> (0 < bits tz)%Z ->
  List.length y = List.length x -> List.length z = List.length x ->
  (forall i, (S i < List.length x)%nat -> tame ty tz (zget y i j) (zget z i j) (zget y (S i) j) (zget z (S i) j)) ->
  zcol_trapz ty tz rs x (zcol y j) (zcol z j) = col_trapz rs x (mcol (mfloats y) j) (mcol (mfloats z) j).
Proof.
  intros Wy Wz Ly Lz H. unfold zcol_trapz, col_trapz. rewrite !zcol_tab, !mcol_floats, Ly, Lz.
  assert (E : x = tab (List.length x) (fun i => nth i x 0)).
  { apply (list_eq_nth 0); [now rewrite tab_length|]. intros i Hi. now rewrite tab_nth. }
  destruct (List.length x) as [|n]; [rewrite E; reflexivity|]. rewrite E, !combine_tab, !pairs_tab. unfold tab. rewrite !map_map. f_equal.
  apply map_ext_in. intros i I. apply in_seq in I. cbn [fst snd]. apply zseg_exact; auto. apply H. lia.
Qed.

Lemma shaped_floats nr nc m : shaped nr nc m <-> shaped nr nc (mfloats m).
Proof.
  unfold shaped, mfloats. rewrite map_length, Forall_map. split; intros [H K]; (split; [exact H|]); (eapply Forall_impl; [|exact K]);
    intros r E; cbn in *; now rewrite floats_length in *.
Qed.
Lemma shapedb_floats nr nc m : shapedb nr nc (mfloats m) = shapedb nr nc m.
Proof. apply Bool.eq_true_iff_eq. rewrite !shapedb_spec. symmetry. apply shaped_floats. Qed.
Lemma zquad_some ty tz g y z meth : (0 < bits ty)%Z -> (0 < bits tz)%Z -> gentle ty tz y z ->
  zquad_meridional ty tz g y (Some z) meth = quad_meridional g (A2 (mfloats y)) (Some (mfloats z)) meth.
Proof.
  intros Wy Wz H. unfold zquad_meridional. destruct (is_sptrapz meth) eqn:Es; [|reflexivity]. unfold quad_meridional, passert.
  rewrite mfloats_length, mfloats_ncols. destruct (Nat.eqb_spec (List.length y) (g_nlat g)) as [Ly|]; [|reflexivity]. cbv zeta.
  assert (Eb : is_boxcount meth = false) by (unfold is_boxcount, is_sptrapz in *; apply String.eqb_eq in Es; now subst meth). rewrite Eb, Es.
  destruct (Nat.leb (zncols y) (g_nlon g)); [|reflexivity]. rewrite shapedb_floats.
  destruct (shapedb (g_nlat g) (zncols y) z) eqn:Ez; [|reflexivity]. f_equal. apply tab_ext. intros j Hj. apply shapedb_spec in Ez.
  apply zcol_exact; auto; rewrite phi_length; [exact Ly|exact (proj1 Ez)|]. intros i Hi. apply H; [lia|exact Hj].
Qed.
Lemma zget_ones (y : zmat) nr nc i j : shaped nr nc y -> (i < nr)%nat -> (j < nc)%nat -> zget (map (map (fun _ => 1%Z)) y) i j = 1%Z.
Proof.
  intros [L F] Hi Hj. unfold zget. rewrite (nth_map_lt _ _ _ []) by lia. rewrite Forall_forall in F.
  assert (Lr : List.length (nth i y []) = nc) by (apply F, nth_In; lia). now rewrite (nth_map_lt _ _ _ 0%Z) by lia.
Qed.
Lemma ones_floats (y : zmat) : mfloats (map (map (fun _ => 1%Z)) y) = ones_like (mfloats y).
Proof.
  unfold mfloats, ones_like, mmap, floats. rewrite !map_map. apply map_ext. intros r. rewrite !map_map. reflexivity.
Qed.
Lemma ones_shaped nr nc (y : zmat) : shaped nr nc y -> shaped nr nc (map (map (fun _ => 1%Z)) y).
Proof.
  intros [L F]. split; [now rewrite map_length|]. rewrite Forall_map. eapply Forall_impl; [|exact F]. intros r E. now rewrite map_length.
Qed.
Lemma ones_nonneg (y : zmat) i j : (0 <= zget (map (map (fun _ => 1%Z)) y) i j)%Z.
Proof.
  unfold zget. destruct (Nat.lt_ge_cases i (List.length y)) as [H|H].
  - rewrite (nth_map_lt _ _ _ []) by exact H. destruct (Nat.lt_ge_cases j (List.length (nth i y []))) as [K|K].
    + now rewrite (nth_map_lt _ _ _ 0%Z) by exact K.
    + rewrite nth_overflow; [reflexivity|now rewrite map_length].
  - rewrite (nth_overflow (map _ y)) by (now rewrite map_length). now destruct j.
Qed.
Lemma zquad_none ty tz g y meth nc : (0 < bits ty)%Z -> shaped (g_nlat g) nc y ->
  (forall i j, (S i < g_nlat g)%nat -> (j < nc)%nat -> fits ty (zget y (S i) j - zget y i j)) ->
  zquad_meridional ty tz g y None meth = quad_meridional g (A2 (mfloats y)) None meth.
Proof.
  intros Wy Sy H. destruct (Nat.eq_dec (g_nlat g) 0) as [Z0|NZ].
  { unfold zquad_meridional, quad_meridional, passert. rewrite mfloats_length, mfloats_ncols. destruct Sy as [L F]. rewrite L.
    destruct (is_sptrapz meth) eqn:Es; [|reflexivity]. rewrite Nat.eqb_refl. cbv zeta.
    destruct y; [|cbn in L; lia]. rewrite Z0. cbn [zncols map].
    assert (Eb : is_boxcount meth = false) by (unfold is_boxcount, is_sptrapz in *; apply String.eqb_eq in Es; now subst meth). rewrite Eb. reflexivity. }
  assert (N : zncols y = nc).
  { destruct Sy as [L F]. destruct y; [cbn in L; lia|]. now inversion F. }
  assert (O : mfloats (map (map (fun _ => 1%Z)) y) = mat_of (g_nlat g) nc (fun _ _ => 1)).
  { rewrite ones_floats. apply (mat_ext (g_nlat g) nc); [now apply shaped_mmap, shaped_floats|apply shaped_mat_of|].
    intros i j Hi Hj. unfold ones_like. rewrite (mget_mmap (g_nlat g) nc) by (auto; now apply shaped_floats). now rewrite mget_mat_of. }
  transitivity (quad_meridional g (A2 (mfloats y)) (Some (mfloats (map (map (fun _ => 1%Z)) y))) meth).
  - assert (G : gentle ty ty y (map (map (fun _ => 1%Z)) y)); [|rewrite <- (zquad_some ty ty g y _ meth Wy Wy G); unfold zquad_meridional;
      destruct (is_sptrapz meth) eqn:Es; [reflexivity|cbn [option_map]; rewrite O; unfold quad_meridional; now rewrite mfloats_ncols, N]].
    intros i j Hi Hj. destruct Sy as [L F]. split; [apply H; lia|].
    intros Q. pose proof (ones_nonneg y i j). pose proof (ones_nonneg y (S i) j). lia.
  - rewrite O. unfold quad_meridional. now rewrite mfloats_ncols, N.
Qed.

(** ** zonalize *)
Lemma fold_min l x : fold_left Rmin (floats l) (IZR x) = IZR (fold_left Z.min l x).
Proof.
  revert x. induction l as [|y l IH]; intros x; cbn [floats map fold_left]; [reflexivity|]. rewrite <- IH. f_equal.
  unfold Rmin. destruct (Rle_dec (IZR x) (IZR y)) as [H|H]; f_equal; [apply le_IZR in H|apply Rnot_le_lt, lt_IZR in H]; lia.
Qed.
Lemma fold_max l x : fold_left Rmax (floats l) (IZR x) = IZR (fold_left Z.max l x).
Proof.
  revert x. induction l as [|y l IH]; intros x; cbn [floats map fold_left]; [reflexivity|]. rewrite <- IH. f_equal.
  unfold Rmax. destruct (Rle_dec (IZR x) (IZR y)) as [H|H]; f_equal; [apply le_IZR in H|apply Rnot_le_lt, lt_IZR in H]; lia.
Qed.
Lemma concat_floats m : concat (mfloats m) = floats (concat m).
Proof. unfold mfloats, floats. now rewrite concat_map. Qed.
Lemma zmin_R m : mmin (mfloats m) = IZR (zmin m).
Proof. unfold mmin, vmin, zmin. rewrite concat_floats. destruct (concat m); [reflexivity|]. apply fold_min. Qed.
Lemma zmax_R m : mmax (mfloats m) = IZR (zmax m).
Proof. unfold mmax, vmax, zmax. rewrite concat_floats. destruct (concat m); [reflexivity|]. apply fold_max. Qed.
Lemma zauto_eq t lo hi n : zauto_levels t lo hi n
  = auto_levels ((IZR lo + IZR hi) / 2 - IZR (wrap t (hi - lo)) / 2) ((IZR lo + IZR hi) / 2 + IZR (wrap t (hi - lo)) / 2) n.
Proof. unfold zauto_levels, auto_levels. apply map_ext. intros x. field. Qed.
Lemma zauto_exact t lo hi n : (0 < bits t)%Z -> fits t (hi - lo) -> zauto_levels t lo hi n = auto_levels (IZR lo) (IZR hi) n.
Proof.
  intros W H. rewrite zauto_eq, (wrap_fits t _ W H), minus_IZR. f_equal; field.
Qed.
Lemma number_exact t g field o qd : (0 < bits t)%Z -> fits t (zmax field - zmin field) ->
  zonalize_number t g field o qd = zonalize_contours g (mfloats field) (levels_of o) qd.
Proof.
  intros W H. unfold zonalize_number, zonalize_contours. rewrite mfloats_length, mfloats_ncols.
  destruct (Nat.eqb (List.length field) 0 || Nat.eqb (zncols field) 0); [reflexivity|]. cbn [zonalize_levels].
  rewrite (zauto_exact t _ _ _ W H), zmin_R, zmax_R. destruct o; reflexivity.
Qed.
Lemma fits_zero t : (0 < bits t)%Z -> fits t 0.
Proof. destruct t; cbn; intros W; [pose proof (Z.pow_pos_nonneg 2 (w - 1))|pose proof (Z.pow_pos_nonneg 2 w)]; lia. Qed.
Lemma fold_min_le l x : (fold_left Z.min l x <= x)%Z.
Proof. revert x. induction l as [|y l IH]; intros x; cbn [fold_left]; [lia|]. specialize (IH (Z.min x y)). lia. Qed.
Lemma fold_max_ge l x : (x <= fold_left Z.max l x)%Z.
Proof. revert x. induction l as [|y l IH]; intros x; cbn [fold_left]; [lia|]. specialize (IH (Z.max x y)). lia. Qed.
Lemma extremes_fit t m : (0 < bits t)%Z -> all_fit t m -> (zmin m <= zmax m)%Z /\ fits t (zmin m) /\ fits t (zmax m).
Proof.
  intros W H. unfold zmin, zmax. destruct (concat m) as [|x l] eqn:E; [split; [lia|]; split; apply fits_zero; exact W|].
  split; [pose proof (fold_min_le l x); pose proof (fold_max_ge l x); lia|].
  assert (A : Forall (fits t) (x :: l)).
  { rewrite <- E. clear E. induction H; cbn; [constructor|]. now apply Forall_app. }
  inversion_clear A as [|? ? X L]. clear E. revert x X. induction L as [|y l Y L IH]; intros x X; cbn [fold_left]; [easy|].
  destruct (IH (Z.min x y)) as [I1 _]; [destruct (Z.min_spec x y) as [[_ ->]|[_ ->]]; assumption|].
  destruct (IH (Z.max x y)) as [_ I2]; [destruct (Z.max_spec x y) as [[_ ->]|[_ ->]]; assumption|]. easy.
Qed.
Lemma zquad_exact ty tz g y z meth : (0 < bits ty)%Z -> (0 < bits tz)%Z -> gentle ty tz y z ->
  zquad ty tz g y (Some z) meth = quad g (A2 (mfloats y)) (Some (mfloats z)) meth.
Proof. intros Wy Wz H. unfold zquad, quad. now rewrite zquad_some. Qed.
Lemma zget_map (f : Z -> Z) (m : zmat) nr nc i j : shaped nr nc m -> (i < nr)%nat -> (j < nc)%nat -> zget (map (map f) m) i j = f (zget m i j).
Proof.
  intros [L F] Hi Hj. unfold zget. rewrite (nth_map_lt _ _ _ []) by lia. rewrite Forall_forall in F.
  assert (Lr : List.length (nth i m []) = nc) by (apply F, nth_In; lia). now rewrite (nth_map_lt _ _ _ 0%Z) by lia.
Qed.
Lemma zget_In (P : Z -> Prop) (m : zmat) nr nc i j : shaped nr nc m -> Forall (Forall P) m -> (i < nr)%nat -> (j < nc)%nat -> P (zget m i j).
Proof.
  intros [L F] H Hi Hj. unfold zget. rewrite Forall_forall in F, H. assert (I : In (nth i m []) m) by (apply nth_In; lia).
  specialize (H _ I). rewrite Forall_forall in H. apply H, nth_In. rewrite (F _ I). exact Hj.
Qed.
Lemma zncols_shaped nr nc (m : zmat) : (0 < nr)%nat -> shaped nr nc m -> zncols m = nc.
Proof. intros Hn [L F]. destruct m; [cbn in L; lia|]. now inversion F. Qed.
Lemma zncols_map (f : Z -> Z) (m : zmat) : zncols (map (map f) m) = zncols m.
Proof. destruct m; cbn; [reflexivity|apply map_length]. Qed.
Lemma integers_ok t g field levels qd : (0 < g_nlat g)%nat ->
  (forall q, In q levels -> zquad t t g (map (map (fun _ => 1%Z)) field) (Some (map (map (fun x => wrap t (x - q))) field)) qd
     = quad g (A2 (ones_like (mfloats field))) (Some (mmap (fun x => x - IZR q) (mfloats field))) qd) ->
  zonalize_integers t g field levels qd = zonalize_contours g (mfloats field) (LArr (floats levels)) qd.
Proof.
  intros Hn H. unfold zonalize_integers, zonalize_contours. rewrite mfloats_length, mfloats_ncols.
  destruct (Nat.eqb (List.length field) 0 || Nat.eqb (zncols field) 0); [reflexivity|]. cbn [zonalize_levels].
  destruct levels as [|q l]; [reflexivity|]. unfold floats. cbn [map].
  replace (res_map (fun thresh => quad g (A2 (ones_like (mfloats field))) (Some (mmap (fun x => x - thresh) (mfloats field))) qd) (IZR q :: map IZR l))
    with (res_map (fun thresh => zquad t t g (map (map (fun _ => 1%Z)) field) (Some (map (map (fun x => wrap t (x - thresh))) field)) qd) (q :: l)); [reflexivity|].
  change (IZR q :: map IZR l) with (floats (q :: l)). revert H. generalize (q :: l). clear. intros l H. induction l as [|q l IH]; [reflexivity|].
  cbn [res_map floats map]. rewrite (H q (or_introl eq_refl)). rewrite IH; [reflexivity|]. intros p I. apply H. now right.
Qed.
Lemma half_fits w x y : (1 < w)%Z -> half w x -> half w y -> fits (Signed w) (x - y).
Proof.
  intros W [A B] [C D]. cbn. replace (2 ^ (w - 1))%Z with (2 * 2 ^ (w - 2))%Z; [lia|]. rewrite <- Z.pow_succ_r by lia. f_equal. lia.
Qed.
Lemma mfloats_shift m q : mmap (fun x => x - IZR q) (mfloats m) = mfloats (map (map (fun x => (x - q)%Z)) m).
Proof.
  unfold mmap, mfloats, floats. rewrite !map_map. apply map_ext. intros r. rewrite !map_map. apply map_ext. intros x. now rewrite minus_IZR.
Qed.
Lemma integers_exact w g field levels qd nc : (1 < w)%Z -> (0 < g_nlat g)%nat -> shaped (g_nlat g) nc field ->
  Forall (Forall (half w)) field -> Forall (half w) levels ->
  zonalize_integers (Signed w) g field levels qd = zonalize_contours g (mfloats field) (LArr (floats levels)) qd.
Proof.
  intros W Hn Sf Hf Hl. apply integers_ok; [exact Hn|]. intros q Iq. rewrite Forall_forall in Hl. specialize (Hl q Iq).
  rewrite mfloats_shift, <- ones_floats.
  assert (E : map (map (fun x => wrap (Signed w) (x - q))) field = map (map (fun x => (x - q)%Z)) field).
  { apply map_ext_in. intros r Ir. apply map_ext_in. intros x Ix. rewrite Forall_forall in Hf. specialize (Hf r Ir).
    rewrite Forall_forall in Hf. apply wrap_fits; [cbn; lia|]. apply half_fits; auto. }
  rewrite E. apply zquad_exact; [cbn; lia|cbn; lia|]. intros i j Hi Hj. rewrite map_length in Hi. rewrite zncols_map in Hj.
  rewrite (zncols_shaped _ _ _ Hn Sf) in Hj. destruct Sf as [L F]. rewrite L in Hi.
  assert (Sf : shaped (g_nlat g) nc field) by (split; auto).
  rewrite !(zget_map _ _ (g_nlat g) nc) by (auto; lia). split; [apply fits_zero; cbn; lia|]. intros _.
  replace (zget field (S i) j - q - (zget field i j - q))%Z with (zget field (S i) j - zget field i j)%Z by lia.
  apply half_fits; auto; apply (zget_In (half w) _ (g_nlat g) nc); auto; lia.
Qed.

(** unsigned types: no difference is negative *)
Lemma unsigned_area w res rs om nt g field q qd nc : (0 < w)%Z -> mk_grid res rs om nt = Ok g -> known_method qd -> (nc <= g_nlon g)%nat ->
  shaped (g_nlat g) nc field ->
  zquad (Unsigned w) (Unsigned w) g (map (map (fun _ => 1%Z)) field) (Some (map (map (fun x => wrap (Unsigned w) (x - q))) field)) qd
  = Ok (rs * deg2rad res * (INR nc * (2 * rs))).
Proof.
  intros W Hg Hm Hc Sf. pose proof (mk_grid_facts _ _ _ _ _ Hg) as F. pose proof (nlat_pos _ _ _ _ _ Hg) as Hn.
  assert (P : forall i j, (i < g_nlat g)%nat -> (j < nc)%nat -> (0 <= zget (map (map (fun x => wrap (Unsigned w) (x - q))) field) i j)%Z).
  { intros i j Hi Hj. rewrite (zget_map _ _ (g_nlat g) nc) by auto. destruct (wrap_remains (Unsigned w) (zget field i j - q) W) as [B _]. cbn in B |- *. lia. }
  rewrite zquad_exact; [|exact W|exact W|].
  - assert (S2 : shaped (g_nlat g) nc (mfloats (map (map (fun x => wrap (Unsigned w) (x - q))) field))).
    { apply shaped_floats. destruct Sf as [L Q]. split; [now rewrite map_length|]. rewrite Forall_map. eapply Forall_impl; [|exact Q]. intros r E. now rewrite map_length. }
    rewrite (quad_form _ _ _ _ _ Hg qd nc); [|exact Hm|exact Hc|apply shaped_floats; now apply ones_shaped|exact S2].
    rewrite (gf_rs _ _ _ _ F). unfold g_dlam, g_dlon. rewrite (gf_res _ _ _ _ F). do 2 f_equal.
    rewrite <- Rsum_tab_const. f_equal. apply tab_ext. intros j Hj. rewrite <- (cq_one _ _ _ _ _ Hg qd Hm).
    rewrite (cq_ext g qd _ _ (fun _ => 1) (fun i => mget (mfloats (map (map (fun x => wrap (Unsigned w) (x - q))) field)) i j)).
    + apply (cq_all _ _ _ _ _ Hg). intros i Hi. rewrite mget_floats. apply (IZR_le 0). now apply P.
    + intros i Hi. rewrite mget_floats. now rewrite (zget_ones field (g_nlat g) nc).
    + reflexivity.
  - intros i j Hi Hj. rewrite map_length in Hi. rewrite zncols_map, (zncols_shaped _ _ _ Hn Sf) in Hj. pose proof (proj1 Sf) as L. rewrite L in Hi. split.
    + rewrite !(zget_ones field (g_nlat g) nc) by (auto; lia). now apply fits_zero.
    + intros Q. pose proof (P i j ltac:(lia) Hj). pose proof (P (S i) j ltac:(lia) Hj). lia.
Qed.
Lemma unsigned_contours w res rs om nt g field levels qd nc : (0 < w)%Z -> mk_grid res rs om nt = Ok g -> is_integer (360 / res) ->
  known_method qd -> (0 < nc <= g_nlon g)%nat -> shaped (g_nlat g) nc field -> levels <> [] ->
  zonalize_integers (Unsigned w) g field levels qd = Ok (floats levels, repeat (-90) (List.length levels)).
Proof.
  intros W Hg Hi Hm Hc Sf Hl. pose proof (mk_grid_facts _ _ _ _ _ Hg) as F. pose proof (nlat_pos _ _ _ _ _ Hg) as Hn.
  unfold zonalize_integers. rewrite (zncols_shaped _ _ _ Hn Sf), (proj1 Sf).
  replace (Nat.eqb (g_nlat g) 0) with false by (symmetry; apply Nat.eqb_neq; lia). replace (Nat.eqb nc 0) with false by (symmetry; apply Nat.eqb_neq; lia). cbn [orb].
  destruct levels as [|q l]; [easy|]. rewrite (Proofs_Zonalize.res_map_ok _ (fun _ => rs * deg2rad res * (INR nc * (2 * rs)))).
  2: { intros a _. apply (unsigned_area w res rs om nt g field a qd nc); auto. lia. }
  cbn [bind equivalent_latitude]. do 2 f_equal. rewrite !map_map. generalize (q :: l). intros k. induction k as [|a k IH]; [reflexivity|].
  cbn [map repeat List.length]. f_equal; [|exact IH]. apply (eqlat_clamp _ _ _ _ _ Hg). apply Req_le.
  assert (0 < INR nc) by (apply lt_0_INR; lia). pose proof (proj2 (kappa_one _ _ _ _ _ Hg) Hi) as Kq. unfold kappa in Kq.
  transitivity (4 * PI * (rs * rs) * (INR (g_nlon g) * res / 360)); [rewrite Kq; ring|]. unfold deg2rad. field. lra.
Qed.

(** signed types: a range of values that does not fit turns the levels around *)
Lemma levels_turned w lo hi n : (0 < w)%Z -> fits (Signed w) lo -> fits (Signed w) hi -> (2 ^ (w - 1) <= hi - lo)%Z ->
  let l := zauto_levels (Signed w) lo hi n in
  List.length l = n /\ (forall j k, (j < k < n)%nat -> nth k l 0 < nth j l 0)
  /\ forall x, In x l -> Rabs (x - (IZR lo + IZR hi) / 2) < (IZR (2 ^ w) - (IZR hi - IZR lo)) / 2.
Proof.
  intros W [A B] [C D] H. cbv zeta. assert (P2 : (2 ^ w = 2 * 2 ^ (w - 1))%Z) by (rewrite <- Z.pow_succ_r by lia; f_equal; lia).
  assert (E : wrap (Signed w) (hi - lo) = (hi - lo - 2 ^ w)%Z).
  { apply remains_wrap; [exact W|]. split; [cbn; lia|]. exists (-1)%Z. cbn [bits]. lia. }
  rewrite zauto_eq, E, !minus_IZR. set (m := (IZR lo + IZR hi) / 2). set (h := (IZR (2 ^ w) - (IZR hi - IZR lo)) / 2).
  assert (Hh : 0 < h). { unfold h. assert (Q : (hi - lo < 2 ^ w)%Z) by lia. apply IZR_lt in Q. rewrite minus_IZR in Q. lra. }
  replace (m - (IZR hi - IZR lo - IZR (2 ^ w)) / 2) with (m + h) by (unfold h; field).
  replace (m + (IZR hi - IZR lo - IZR (2 ^ w)) / 2) with (m - h) by (unfold h; field).
  assert (Q : auto_levels (m + h) (m - h) n = map (fun x => 2 * m - x) (auto_levels (m - h) (m + h) n)).
  { rewrite !auto_levels_tab, tab_map. apply tab_ext. intros. field. }
  destruct n as [|n]; [rewrite Q; cbn; repeat split; [lia|easy]|].
  destruct (auto_levels_facts (m - h) (m + h) (S n) ltac:(lra)) as [L [I [R _]]].
  rewrite Q. split; [now rewrite map_length|]. split.
  - intros j k K. rewrite !(nth_map_lt _ _ _ 0) by lia. assert (nth j (auto_levels (m - h) (m + h) (S n)) 0 < nth k (auto_levels (m - h) (m + h) (S n)) 0) by (apply I; lia). lra.
  - intros x X. apply in_map_iff in X. destruct X as [y [<- Y]]. specialize (R y Y). apply Rabs_def1; lra.
Qed.

(** ** Consequences for derivatives *)
Lemma dphi_neg res rs om nt g : mk_grid res rs om nt = Ok g -> g_dphi g < 0.
Proof.
  intros Hg. pose proof (mk_grid_facts _ _ _ _ _ Hg) as F. pose proof (gf_res_pos _ _ _ _ F). unfold g_dphi, g_dlat, deg2rad. rewrite (gf_res _ _ _ _ F).
  pose proof PI_RGT_0. nra.
Qed.
Lemma order_pos a c : is_order a c -> 0 < c.
Proof. intros [[_ ->]|[_ ->]]; lra. Qed.
Lemma quot_eq c d x y : 0 < c -> d < 0 -> x / c / d = y / c / d <-> x = y.
Proof.
  intros Hc Hd. split; [intros E|now intros ->]. transitivity (x / c / d * d * c); [field; lra|]. rewrite E. field. lra.
Qed.
Lemma xstencil2_bound n f i B : (forall k, - B <= f k <= B)%Z -> (- (8 * B) <= xstencil2 n f i <= 8 * B)%Z.
Proof.
  intros H. unfold xstencil2. destruct (Nat.eqb i 0); [|destruct (Nat.eqb i (n - 1))].
  - pose proof (H 0%nat). pose proof (H 1%nat). pose proof (H 2%nat). lia.
  - pose proof (H (n - 1)%nat). pose proof (H (n - 2)%nat). pose proof (H (n - 3)%nat). lia.
  - pose proof (H (i + 1)%nat). pose proof (H (i - 1)%nat). lia.
Qed.
Lemma xstencil4_bound n f i B : (forall k, - B <= f k <= B)%Z -> (- (128 * B) <= xstencil4 n f i <= 128 * B)%Z.
Proof.
  intros H. unfold xstencil4. destruct (Nat.eqb i 0); [|destruct (Nat.eqb i 1); [|destruct (Nat.eqb i (n - 1)); [|destruct (Nat.eqb i (n - 2))]]].
  - pose proof (H 0%nat). pose proof (H 1%nat). pose proof (H 2%nat). pose proof (H 3%nat). pose proof (H 4%nat). lia.
  - pose proof (H 0%nat). pose proof (H 1%nat). pose proof (H 2%nat). pose proof (H 3%nat). pose proof (H 4%nat). lia.
  - pose proof (H (n - 1)%nat). pose proof (H (n - 2)%nat). pose proof (H (n - 3)%nat). pose proof (H (n - 4)%nat). pose proof (H (n - 5)%nat). lia.
  - pose proof (H (n - 1)%nat). pose proof (H (n - 2)%nat). pose proof (H (n - 3)%nat). pose proof (H (n - 4)%nat). pose proof (H (n - 5)%nat). lia.
  - pose proof (H (i - 2)%nat). pose proof (H (i - 1)%nat). pose proof (H (i + 1)%nat). pose proof (H (i + 2)%nat). lia.
Qed.
Lemma zget_bound (P : Z -> Prop) m i j : P 0%Z -> Forall (Forall P) m -> P (zget m i j).
Proof.
  intros P0 H. unfold zget. destruct (Nat.lt_ge_cases i (List.length m)) as [Hi|Hi].
  - rewrite Forall_forall in H. specialize (H (nth i m []) (nth_In _ _ Hi)). destruct (Nat.lt_ge_cases j (List.length (nth i m []))) as [Hj|Hj].
    + rewrite Forall_forall in H. apply H, nth_In, Hj.
    + now rewrite nth_overflow.
  - rewrite (nth_overflow m) by exact Hi. now destruct j.
Qed.
Lemma nth_bound (P : Z -> Prop) v i : P 0%Z -> Forall P v -> P (nth i v 0%Z).
Proof.
  intros P0 H. destruct (Nat.lt_ge_cases i (List.length v)) as [Hi|Hi]; [|now rewrite nth_overflow].
  rewrite Forall_forall in H. apply H, nth_In, Hi.
Qed.
Lemma small_fits w a c N B : (0 <= B)%Z -> is_order a c -> ((if Reqb c 2 then 8 else 128) * B < 2 ^ (w - 1))%Z ->
  (- ((if Reqb c 2 then 8 else 128) * B) <= N <= (if Reqb c 2 then 8 else 128) * B)%Z -> fits (Signed w) N.
Proof. intros HB Ha Hw HN. cbn [fits]. destruct (Reqb c 2); lia. Qed.
Lemma derivative_small w g f a c B : (0 < w)%Z -> is_order a c -> (0 <= B)%Z -> ((if Reqb c 2 then 8 else 128) * B < 2 ^ (w - 1))%Z ->
  match f with Z1 v => Forall (fun x => - B <= x <= B)%Z v | Z2 m => Forall (Forall (fun x => - B <= x <= B)%Z) m end ->
  derivative_signed w g f a = derivative_meridional g (zfloats f) a.
Proof.
  intros W Ha HB Hw Hf. pose proof (derivative_form w g f a c _ W Ha eq_refl) as D. destruct f as [v|m].
  - destruct D as [[e [-> ->]]|[N [-> [-> HN]]]]; [reflexivity|]. do 2 f_equal. apply tab_ext. intros i _. do 3 f_equal.
    apply wrap_fits; [exact W|]. rewrite HN. destruct (is_pole (List.length v) i); [now apply fits_zero|].
    assert (Q : forall k, (- B <= nth k v 0 <= B)%Z) by (intros k; apply (nth_bound (fun x => - B <= x <= B)%Z); [lia|exact Hf]).
    apply (small_fits w a c _ B); auto. destruct (Reqb c 2); [now apply xstencil2_bound|now apply xstencil4_bound].
  - destruct D as [[e [-> ->]]|[N [-> [-> HN]]]]; [reflexivity|]. do 2 f_equal. apply tab_ext. intros i _. apply tab_ext. intros j _. do 3 f_equal.
    apply wrap_fits; [exact W|]. rewrite HN.
    assert (Q : forall k, (- B <= zget m k j <= B)%Z) by (intros k; apply (zget_bound (fun x => - B <= x <= B)%Z); [lia|exact Hf]).
    apply (small_fits w a c _ B); auto. destruct (Reqb c 2); [now apply xstencil2_bound|now apply xstencil4_bound].
Qed.
Lemma wrapped_at w c dphi N : (0 < w)%Z -> 0 < c -> dphi < 0 -> wrapped w c dphi (IZR N / c / dphi) (IZR (wrap (Signed w) N) / c / dphi).
Proof.
  intros W Hc Hd. exists N, (wrap (Signed w) N). split; [now apply wrap_remains|]. split; [reflexivity|]. split; [reflexivity|].
  rewrite quot_eq by assumption. rewrite <- (wrap_iff (Signed w)) by exact W. split; [apply eq_IZR|now intros ->].
Qed.
Lemma derivative_field res rs om nt g : mk_grid res rs om nt = Ok g -> forall w a c m, (0 < w)%Z -> is_order a c ->
  (forall e, derivative_meridional g (A2 (mfloats m)) a = Err e <-> derivative_signed w g (Z2 m) a = Err e)
  /\ forall d, derivative_meridional g (A2 (mfloats m)) a = Ok d ->
       exists f f', d = A2 f /\ derivative_signed w g (Z2 m) a = Ok (A2 f')
         /\ shaped (List.length m) (zncols m) f /\ shaped (List.length m) (zncols m) f'
         /\ forall i j, (i < List.length m)%nat -> (j < zncols m)%nat -> wrapped w c (g_dphi g) (mget f i j) (mget f' i j).
Proof.
  intros Hg w a c m W Ha. pose proof (derivative_form w g (Z2 m) a c _ W Ha eq_refl) as D. cbn [zfloats] in D.
  destruct D as [[e [E1 E2]]|[N [E1 [E2 HN]]]]; rewrite E1, E2; (split; [intros; split; congruence|]); intros d Ed; [discriminate|injection Ed as <-].
  eexists _, _. split; [reflexivity|]. split; [reflexivity|]. split; [apply shaped_mat_of|]. split; [apply shaped_mat_of|].
  intros i j Hi Hj. rewrite !mget_mat_of by assumption. apply wrapped_at; [exact W|exact (order_pos a c Ha)|exact (dphi_neg _ _ _ _ _ Hg)].
Qed.
Lemma derivative_1d res rs om nt g : mk_grid res rs om nt = Ok g -> forall w a c v, (0 < w)%Z -> is_order a c ->
  (forall e, derivative_meridional g (A1 (floats v)) a = Err e <-> derivative_signed w g (Z1 v) a = Err e)
  /\ forall d, derivative_meridional g (A1 (floats v)) a = Ok d ->
       exists f f', d = A1 f /\ derivative_signed w g (Z1 v) a = Ok (A1 f') /\ List.length f = List.length v /\ List.length f' = List.length v
         /\ forall i, (i < List.length v)%nat -> wrapped w c (g_dphi g) (nth i f 0) (nth i f' 0).
Proof.
  intros Hg w a c v W Ha. pose proof (derivative_form w g (Z1 v) a c _ W Ha eq_refl) as D. cbn [zfloats] in D.
  destruct D as [[e [E1 E2]]|[N [E1 [E2 HN]]]]; rewrite E1, E2; (split; [intros; split; congruence|]); intros d Ed; [discriminate|injection Ed as <-].
  eexists _, _. split; [reflexivity|]. split; [reflexivity|]. split; [apply tab_length|]. split; [apply tab_length|].
  intros i Hi. rewrite !tab_nth by assumption. apply wrapped_at; [exact W|exact (order_pos a c Ha)|exact (dphi_neg _ _ _ _ _ Hg)].
Qed.
Lemma profile_unsigned res rs om nt g : mk_grid res rs om nt = Ok g -> (3 <= g_nlat g)%nat -> forall w v, (0 < w)%Z -> Forall (fits (Unsigned w)) v ->
  exists d d', derivative_meridional g (A1 (floats v)) (ONum 2) = Ok (A1 d) /\ derivative_profile2 (Unsigned w) g v = Ok d'
    /\ List.length d' = List.length v /\ (forall i, (i < List.length v)%nat -> nth i d' 0 <= 0)
    /\ nth 0 d' 0 = 0 /\ nth (List.length v - 1) d' 0 = 0
    /\ forall i, (0 < i < List.length v - 1)%nat -> (nth i d' 0 = nth i d 0 <-> (nth (i - 1) v 0 <= nth (i + 1) v 0)%Z).
Proof.
  intros Hg H3 w v W Hv. pose proof (dphi_neg _ _ _ _ _ Hg) as Hd. assert (O : is_order (ONum 2) 2) by (left; easy).
  assert (R22 : Reqb 2 2 = true) by (unfold Reqb; destruct (Req_EM_T 2 2); [reflexivity|lra]).
  pose proof (derivative_form w g (Z1 v) (ONum 2) 2 _ W O eq_refl) as D. cbn [zfloats] in D.
  destruct D as [[e [E _]]|[N [E [_ HN]]]].
  { exfalso. unfold derivative_meridional in E. rewrite R22 in E. unfold passert in E. replace (Nat.leb 3 (g_nlat g)) with true in E by (symmetry; now apply Nat.leb_le). discriminate. }
  rewrite R22 in HN. rewrite E. unfold derivative_profile2, passert. replace (Nat.leb 3 (g_nlat g)) with true by (symmetry; now apply Nat.leb_le).
  eexists _, _. split; [reflexivity|]. split; [reflexivity|]. split; [apply tab_length|]. split.
  - intros i Hi. rewrite tab_nth by exact Hi. rewrite zstencil2_eq by exact W.
    assert (P : (0 <= if is_pole (List.length v) i then 0 else wrap (Unsigned w) (xstencil2 (List.length v) (fun k => nth k v 0) i))%Z).
    { destruct (is_pole (List.length v) i); [lia|]. destruct (wrap_remains (Unsigned w) (xstencil2 (List.length v) (fun k => nth k v 0%Z) i) W) as [B _]. cbn in B |- *. lia. }
    apply IZR_le in P. assert (I : / g_dphi g < 0) by now apply Rinv_lt_0_compat. unfold Rdiv. nra.
  - assert (Z0 : forall i, is_pole (List.length v) i = true -> nth i (tab (List.length v) (fun i =>
      IZR (if is_pole (List.length v) i then 0 else zstencil2 (Unsigned w) (List.length v) (fun k => nth k v 0%Z) i) / 2 / g_dphi g)) 0 = 0).
    { intros i Hi. destruct (Nat.lt_ge_cases i (List.length v)) as [L|L]; [|now rewrite nth_overflow by (now rewrite tab_length)].
      rewrite tab_nth by exact L. rewrite Hi. field. lra. }
    split; [now apply Z0|]. split; [apply Z0; unfold is_pole; rewrite Nat.eqb_refl; apply Bool.orb_true_r|].
    intros i Hi. rewrite !tab_nth by lia. rewrite HN, zstencil2_eq by exact W.
    assert (Ep : is_pole (List.length v) i = false) by (unfold is_pole; apply Bool.orb_false_iff; split; apply Nat.eqb_neq; lia). rewrite Ep.
    rewrite quot_eq by (try exact Hd; lra). unfold xstencil2. replace (Nat.eqb i 0) with false by (symmetry; apply Nat.eqb_neq; lia).
    replace (Nat.eqb i (List.length v - 1)) with false by (symmetry; apply Nat.eqb_neq; lia).
    assert (B : forall k, fits (Unsigned w) (nth k v 0%Z)) by (intros k; apply nth_bound; [now apply fits_zero|exact Hv]).
    pose proof (B (i - 1)%nat) as B1. pose proof (B (i + 1)%nat) as B2. cbn in B1, B2. split.
    + intros Q. apply eq_IZR in Q. rewrite (wrap_iff (Unsigned w) _ W) in Q. cbn in Q. lia.
    + intros Q. f_equal. apply wrap_fits; [exact W|]. cbn. lia.
Qed.
