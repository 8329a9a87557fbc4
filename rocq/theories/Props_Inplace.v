(** Functions with item assignments, statement by statement on a memory: they give
    the arrays of the model without memory, in new cells, and change nothing that
    was there (C140). *)
From Coq Require Export String.
From Verif Require Import Base Model_Grid Model_Region Model_Deriv Model_Quad Model_Spectral Model_Fourier Model_Ranges Model_Ks.
From Verif Require Import Proofs_Base Proofs_Grid Proofs_Region Proofs_Spectral Model_Inplace Spec_Inplace Proofs_Inplace.
From Coq Require Import List Lia Lra.
Import ListNotations.
Open Scope R_scope.

(** derivative_meridional of a 2D and of a 1D array *)
Theorem C140_derivative : forall g m order,
  (forall f nr nc, present2 m f -> shaped nr nc f ->
     computes2 0 (derivative_inplace g 2 f order) m (the_field (derivative_meridional g (A2 (held2 0 m f)) order)))
  /\ (forall f, present m f ->
     computes 0 (derivative1_inplace g f order) m (the_profile (derivative_meridional g (A1 (held 0 m f)) order))).
Proof. intros g m order. split; [intros f nr nc; apply derivative2_computes|intros f; apply derivative1_computes]. Qed.
Print Assumptions C140_derivative.
Example C140_derivative_example : let m := [7; 1; 2; 4; 9] in let f := [[1]; [2]; [3]]%nat in let g := gridA 1 in
  computes2 0 (derivative_inplace g 2 f (ONum 2)) m (Ok [[1 / 2 / g_dphi g]; [3 / 2 / g_dphi g]; [5 / 2 / g_dphi g]])
  /\ computes 0 (derivative1_inplace g [1; 2; 3]%nat (ONum 2)) m (Ok [0 / 2 / g_dphi g; 3 / 2 / g_dphi g; 0 / 2 / g_dphi g])
  /\ computes 0 (derivative1_inplace g [1; 2; 3]%nat ONone) m (Err AssertionError).
Proof.
  intros m f g. destruct (C140_derivative g m (ONum 2)) as [D2 D1]. destruct (C140_derivative g m ONone) as [_ D0].
  assert (P : present m [1; 2; 3]%nat) by (repeat constructor; cbn; lia). assert (N : g_nlat g = 3%nat) by reflexivity.
  assert (Q2 : Reqb 2 2 = true) by (unfold Reqb; destruct (Req_EM_T 2 2); [reflexivity|lra]).
  split; [|split].
  - specialize (D2 f 3%nat 1%nat). unfold derivative_meridional in D2. rewrite Q2, N in D2. cbn in D2.
    replace (-3 * 1 + 4 * 2 - 4) with 1 in D2 by lra. replace (4 - 1) with 3 in D2 by lra. replace (1 - 4 * 2 + 3 * 4) with 5 in D2 by lra.
    apply D2; [repeat constructor; cbn; lia|split; [reflexivity|repeat constructor]].
  - specialize (D1 _ P). unfold derivative_meridional in D1. rewrite Q2, N in D1. cbn in D1. unfold tab in D1. cbn in D1. replace (4 - 1) with 3 in D1 by lra.
    exact D1.
  - specialize (D0 _ P). unfold derivative_meridional in D0. rewrite N in D0. exact D0.
Qed.

(** solve_poisson_spectral *)
Theorem C140_poisson : forall g m rhs op_add, present m rhs -> List.length rhs = nspec (g_ntrunc g) ->
  computes (RtoC 0) (poisson_inplace g rhs op_add) m (Ok (solve_poisson_spectral g (held (RtoC 0) m rhs) op_add)).
Proof. intros g m rhs op_add P L. apply poisson_computes; [exact P|]. rewrite eig_length. exact L. Qed.
Print Assumptions C140_poisson.
Example C140_poisson_example : let m := [RtoC 1; RtoC 2] in let rhs := [0; 1; 0; 0; 0; 0]%nat in
  exists new a, poisson_inplace (gridA 1) rhs 0 m = (m ++ new, Ok a) /\ nth 0 (held (RtoC 0) (m ++ new) a) (RtoC 0) = RtoC 0
    /\ nth 1 (held (RtoC 0) (m ++ new) a) (RtoC 0) = RtoC (-1).
Proof.
  intros m rhs. destruct (C140_poisson (gridA 1) m rhs 0) as [new [E [a [E' [H _]]]]]; [repeat constructor; cbn; lia|reflexivity|].
  exists new, a. split; [now rewrite <- E, <- E', <- surjective_pairing|]. rewrite H. split; [reflexivity|]. cbn. unfold Cdiv, Cinv, Cmult, Copp, RtoC. cbn. f_equal; field.
Qed.

(** gridpoint_area *)
Theorem C140_area : forall res rs om nt g m phi, mk_grid res rs om nt = Ok g -> present m phi -> held 0 m phi = g_phi g ->
  computes 0 (area_inplace g phi) m (Ok (gridpoint_area g)).
Proof. intros res rs om nt g m phi Hg P E. apply area_computes; [exact E|exact P|exact (nlat_gt1 _ _ _ _ _ Hg)|apply phi_length]. Qed.
Print Assumptions C140_area.

(** quad_meridional with the trapezoidal rule; the latitudes of the grid are an
    array of the caller *)
Theorem C140_trapz : forall res rs om nt g m phi2 y z nc, mk_grid res rs om nt = Ok g ->
  present2 m phi2 -> held2 0 m phi2 = g_phi2 g -> present2 m y -> shaped (g_nlat g) nc y -> (nc <= g_nlon g)%nat ->
  match z with Some z => present2 m z /\ shaped (g_nlat g) nc z | None => True end ->
  computes 0 (trapz_inplace g phi2 y z) m
    (quad_meridional g (A2 (held2 0 m y)) (match z with Some z => Some (held2 0 m z) | None => None end) "sptrapz").
Proof.
  intros res rs om nt g m phi2 y z nc Hg P E Py Sy Hc Hz. apply (trapz_computes g m phi2 y z nc); try assumption. pose proof (nlat_gt1 _ _ _ _ _ Hg). lia.
Qed.
Print Assumptions C140_trapz.

(** the hypotheses of both: a memory with the latitudes of the grid of 90 degrees,
    each stored once, and a field of one column *)
Example C140_grid_example : exists (m : vec) phi phi2 y, present m phi /\ held 0 m phi = g_phi (gridA 1)
  /\ present2 m phi2 /\ held2 0 m phi2 = g_phi2 (gridA 1) /\ present2 m y /\ shaped 3 1 y /\ concat y = phi
  /\ mk_grid 90 1 0 None = Ok (gridA 1).
Proof.
  exists (g_phi (gridA 1)), [0; 1; 2]%nat, [[0; 0; 0; 0]; [1; 1; 1; 1]; [2; 2; 2; 2]]%nat, [[0]; [1]; [2]]%nat.
  split; [repeat constructor|]. split; [reflexivity|]. split; [repeat constructor|]. split; [reflexivity|]. split; [repeat constructor|]. split; [split; [reflexivity|repeat constructor]|].
  split; [reflexivity|]. apply gridA_ok. lra.
Qed.

(** equivalent_latitude *)
Theorem C140_eqlat : forall g m area, computes 0 (eqlat_inplace g area) m (equivalent_latitude g (AArr (held 0 m area))).
Proof. exact eqlat_computes. Qed.
Print Assumptions C140_eqlat.

Example C140_eqlat_example : exists new a, eqlat_inplace (gridA 1) [1; 0; 1]%nat [5; 0] = ([5; 0] ++ new, Ok a)
  /\ List.length a = 3%nat /\ nth 0 (held 0 ([5; 0] ++ new) a) 0 = 90.
Proof.
  destruct (C140_eqlat (gridA 1) [5; 0] [1; 0; 1]%nat) as [new [E [a [E' [H _]]]]]. exists new, a. split; [now rewrite <- E, <- E', <- surjective_pairing|].
  split; [rewrite <- (map_length (fun p => nth p ([5; 0] ++ new) 0) a); fold (held 0 ([5; 0] ++ new) a); now rewrite H|]. rewrite H. cbn [held map nth eqlat1]. unfold eqlat1.
  replace (1 - / 2 * 0 / PI / (g_rsphere (gridA 1) * g_rsphere (gridA 1))) with 1 by (cbn; field; apply PI_neq0).
  rewrite (proj2 (Rleb_true 1 1) (Rle_refl 1)). destruct (Rleb 1 (-1)) eqn:L; [apply Rleb_true in L; lra|]. rewrite asin_1. unfold rad2deg. field. apply PI_neq0.
Qed.

(** regions *)
Theorem C140_region : forall res rs om nt g arg rg, mk_grid res rs om nt = Ok g -> region_getitem g arg = Ok rg ->
  (forall m, computes2 false (mask_inplace rg) m (Ok (region_mask rg)))
  /\ (forall m lon, held 0 m lon = g_lon g -> computes 0 (lon_mono_inplace rg lon) m (region_lon_mono rg)).
Proof.
  intros res rs om nt g arg rg Hg Hr. pose proof (mk_grid_facts _ _ _ _ _ Hg) as F.
  assert (N : (0 < g_nlon g)%nat) by (destruct F; lia).
  destruct (region_facts_of g arg rg (nlat_gt1 _ _ _ _ _ Hg) N Hr) as [EG _ HL _ HN _ _]. split.
  - intros m. apply mask_computes; rewrite EG; now apply Forall_forall.
  - intros m lon E. apply lon_mono_computes; rewrite EG; [exact E|]. rewrite lon_length. now apply Forall_forall.
Qed.
Print Assumptions C140_region.

Example C140_region_example : let m := [0; 90; 180; 270] in
  computes 0 (lon_mono_inplace regionW [0; 1; 2; 3]%nat) m (Ok [90 - 360; 180 - 360; 270 - 360; 0])
  /\ computes2 false (mask_inplace regionP) [true] (Ok [[true; false; false; true]; [true; false; false; true]; [false; false; false; false]]).
Proof.
  intros m. assert (Hg := gridA_ok 1 ltac:(lra)). split.
  - destruct (C140_region _ _ _ _ _ _ _ Hg regionW_ok) as [_ H]. specialize (H m [0; 1; 2; 3]%nat). rewrite gridA_lon in H. specialize (H eq_refl).
    replace (region_lon_mono regionW) with (Ok [90 - 360; 180 - 360; 270 - 360; 0] : res vec) in H; [exact H|].
    unfold region_lon_mono, region_lon. simpl rg_grid. rewrite gridA_lon. cbn.
    unfold Rltb. destruct (Rlt_dec (180 - 90) 0); [lra|]. destruct (Rlt_dec (270 - 180) 0); [lra|]. destruct (Rlt_dec (0 - 270) 0); [|lra]. reflexivity.
  - destruct (C140_region _ _ _ _ _ _ _ Hg regionP_ok) as [H _]. exact (H [true]).
Qed.

(** _restrict_fourier_zonal for integer bounds: clearing parts of the coefficients *)
Theorem C140_restrict : forall m field kmin kmax, exists r,
  computes2 (0, 0) (restrict_inplace field kmin kmax) m r
  /\ restrict_fourier_range field (WInt kmin) (WInt kmax) = do rows <- r; res_map irfft rows.
Proof.
  intros m field kmin kmax. eexists. split; [apply restrict_computes|]. unfold restrict_fourier_range. cbn [as_index wnum_incr bind]. destruct (res_map rfft field) as [L|e]; [|reflexivity]. cbn [bind].
  induction L as [|X L IH]; [reflexivity|]. cbn [res_map map]. rewrite IH. reflexivity.
Qed.
Print Assumptions C140_restrict.

Example C140_restrict_example : exists rows, res_map rfft [[1; 2; 3; 4]; [0; 1; 0; 1]] = Ok rows.
Proof. eexists. reflexivity. Qed.

(** stationary_wavenumber: the array of the squared wavenumber is overwritten, and
    nothing else, even if the wind is stored in the same cells *)
Theorem C140_ks2 : forall m ks2 u A U min_u, NoDup ks2 -> present m ks2 -> held NaN m ks2 = map Fin A -> held NaN m u = map Fin U ->
  exists m', keeps_others NaN ks2 m m'
    /\ ks2_inplace ks2 u min_u m = (m', if Nat.eqb (List.length U) (List.length A) then Ok ks2 else Err IndexError)
    /\ (List.length U = List.length A -> held NaN m' ks2 = map2 (ks2_at min_u) A U).
Proof. exact ks2_run. Qed.
Print Assumptions C140_ks2.
Example C140_ks2_example : exists m', ks2_inplace [0; 1; 2]%nat [3; 4; 4]%nat 1 (map Fin [6; 5; 0; 2; 0]) = (m', Ok [0; 1; 2]%nat)
  /\ held NaN m' [0; 1; 2]%nat = [Fin (6 / 2); PInf; Fin 0] /\ held NaN m' [3; 4]%nat = [Fin 2; Fin 0].
Proof.
  destruct (C140_ks2 (map Fin [6; 5; 0; 2; 0]) [0; 1; 2]%nat [3; 4; 4]%nat [6; 5; 0] [2; 0; 0] 1) as [m' [[_ K] [E H]]]; try reflexivity; [repeat constructor; cbn; lia|repeat constructor; cbn; lia|].
  exists m'. split; [exact E|]. split.
  - rewrite H by reflexivity. cbn. unfold ks2_at, isclose_tol, Rleb, Reqb, ediv, emul, signed_inf.
    destruct (Rle_dec (Rabs (2 - 0)) (1 + / 100000 * Rabs 0)) as [L|_]; [exfalso; rewrite Rabs_R0, Rminus_0_r, Rabs_pos_eq in L; lra|].
    destruct (Rle_dec (Rabs (0 - 0)) (1 + / 100000 * Rabs 0)) as [_|L]; [|exfalso; apply L; rewrite Rminus_0_r, Rabs_R0; lra].
    destruct (Req_EM_T 5 0); [lra|]. destruct (Req_EM_T 0 0); [|lra]. cbn. unfold Reqb, Rltb. destruct (Req_EM_T 2 0); [lra|]. destruct (Rlt_dec 0 5); [|lra]. reflexivity.
  - cbn [held map]. rewrite !K by (cbn; lia). reflexivity.
Qed.
