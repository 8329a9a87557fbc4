(** Meridional derivative and stationary wavenumber for every resolution: C125. *)
From Coq Require Export String.
From Verif Require Import Base Model_Grid Spec_Grid Model_Deriv Spec_Deriv Proofs_Base Proofs_Grid Proofs_Region Proofs_Deriv Model_Ks Spec_Ks Proofs_Ks Props_Deriv Props_Ks Props_KsAccuracy.
From Coquelicot Require Import Coquelicot.
From Verif Require Import Model_Region.
From Coq Require Import List Lia Lra.
Open Scope R_scope.

Lemma phi_in res rs om nt g k : mk_grid res rs om nt = Ok g -> (k < g_nlat g)%nat -> - (PI / 2) <= PI / 2 + INR k * hphi g <= PI / 2.
Proof.
  intros Hg Hk. rewrite <- (phi_form _ _ _ _ _ Hg) by exact Hk. rewrite phi_nth by exact Hk.
  assert (Hin : In (nth k (g_lat g) 0) (g_lat g)) by (apply nth_In; now rewrite lat_length).
  apply lat_bounds in Hin. rewrite <- deg2rad_m90, <- deg2rad_90. split; apply (proj1 (deg2rad_le _ _)); lra.
Qed.
Lemma abs_hphi res rs om nt g : mk_grid res rs om nt = Ok g -> Rabs (hphi g) = PI / INR (g_nlat g - 1).
Proof.
  intros Hg. pose proof (nlatm1 _ _ _ _ _ Hg). pose proof PI_RGT_0. unfold hphi.
  replace (- PI / INR (g_nlat g - 1)) with (- (PI / INR (g_nlat g - 1))) by (field; lra).
  rewrite Rabs_Ropp. apply Rabs_pos_eq. apply Rlt_le, Rdiv_lt_0_compat; lra.
Qed.

(** ** C125 *)
(** the factor by which derivatives are too large, its inverse eta being the
    number of latitude intervals times the resolution over 180 *)
Theorem C125_factor : forall res rs om nt g, mk_grid res rs om nt = Ok g ->
  let eta := INR (g_nlat g - 1) * res / 180 in 1 - res / 180 < eta <= 1 /\ (eta = 1 <-> is_integer (180 / res)).
Proof.
  intros res rs om nt g Hg eta. destruct (grid_shape_floor _ _ _ _ _ Hg) as [_ [B1 B2]].
  split; [unfold eta; lra|]. exact (eta_one _ _ _ _ _ Hg).
Qed.
Print Assumptions C125_factor.

Theorem C125_polynomial_profile : forall res rs om nt g, mk_grid res rs om nt = Ok g ->
  forall o a cs, denotes a o -> (S (ord o) <= g_nlat g)%nat -> (length cs <= S (ord o))%nat ->
  exists d, derivative_meridional g (A1 (map (peval cs) (g_phi g))) a = Ok (A1 d) /\ length d = g_nlat g
    /\ forall i, (0 < i < g_nlat g - 1)%nat ->
         is_derive (peval cs) (nth i (g_phi g) 0) (INR (g_nlat g - 1) * res / 180 * nth i d 0).
Proof.
  intros res rs om nt g Hg o a cs Hd Hn Hl. destruct (poly_1d _ _ _ _ _ Hg o a cs Hd Hn Hl) as [d [E [L [_ [_ H]]]]].
  exists d. split; [exact E|]. split; [exact L|exact H].
Qed.
Print Assumptions C125_polynomial_profile.

Theorem C125_polynomial_field : forall res rs om nt g, mk_grid res rs om nt = Ok g ->
  forall o a nc (cs : nat -> list R), denotes a o -> (S (ord o) <= g_nlat g)%nat ->
  (forall j, (j < nc)%nat -> (length (cs j) <= S (ord o))%nat) ->
  exists d, derivative_meridional g (A2 (mat_of (g_nlat g) nc (fun i j => peval (cs j) (nth i (g_phi g) 0)))) a = Ok (A2 d)
    /\ shaped (g_nlat g) nc d
    /\ forall i j, (i < g_nlat g)%nat -> (j < nc)%nat ->
         is_derive (peval (cs j)) (nth i (g_phi g) 0) (INR (g_nlat g - 1) * res / 180 * mget d i j).
Proof. exact poly_2d. Qed.
Print Assumptions C125_polynomial_field.

Theorem C125_accuracy_profile : forall res rs om nt g, mk_grid res rs om nt = Ok g ->
  forall o a (f : R -> R) M, denotes a o -> (S (ord o) <= g_nlat g)%nat -> smooth_bounded (ord o) f M ->
  exists d, derivative_meridional g (A1 (map f (g_phi g))) a = Ok (A1 d) /\ length d = g_nlat g
    /\ forall i, (0 < i < g_nlat g - 1)%nat ->
         Rabs (INR (g_nlat g - 1) * res / 180 * nth i d 0 - Derive f (nth i (g_phi g) 0))
         <= cst o * (PI / INR (g_nlat g - 1)) ^ ord o * M.
Proof.
  intros res rs om nt g Hg o a f M Hd Hn Hs.
  eexists. split; [apply (dm_1d g o); auto; now rewrite map_length, phi_length|].
  split; [apply tab_length|]. intros i Hi. rewrite tab_nth by lia.
  replace (is_pole (g_nlat g) i) with false.
  2:{ symmetry. apply not_true_is_false. rewrite (is_pole_true g) by lia. lia. }
  rewrite (st_ext o _ _ (fun k => f (nth k (g_phi g) 0))); [|auto|lia|].
  2:{ intros k Hk. apply nth_map_lt. now rewrite phi_length. }
  rewrite (st_phi _ _ _ _ _ Hg o i f) by (auto; lia). rewrite (phi_form _ _ _ _ _ Hg) by lia.
  rewrite (dphi_hphi _ _ _ _ _ Hg). rewrite <- (abs_hphi _ _ _ _ _ Hg). fold (eta res g).
  pose proof (hphi_ne _ _ _ _ _ Hg). pose proof (eta_pos _ _ _ _ _ Hg).
  set (s := st o (g_nlat g) _ i).
  replace (eta res g * (s / dv o / (eta res g * hphi g))) with (s / dv o / hphi g) by (destruct o; simpl; field; split; auto; lra).
  apply smooth_error; auto; [lia|]. intros k Hk. now apply (phi_in _ _ _ _ _ _ Hg).
Qed.
Print Assumptions C125_accuracy_profile.

Theorem C125_accuracy_field : forall res rs om nt g, mk_grid res rs om nt = Ok g ->
  forall o a nc (f : nat -> R -> R) M, denotes a o -> (S (ord o) <= g_nlat g)%nat ->
  (forall j, (j < nc)%nat -> smooth_bounded (ord o) (f j) M) ->
  exists d, derivative_meridional g (A2 (mat_of (g_nlat g) nc (fun i j => f j (nth i (g_phi g) 0)))) a = Ok (A2 d)
    /\ shaped (g_nlat g) nc d
    /\ forall i j, (i < g_nlat g)%nat -> (j < nc)%nat ->
         Rabs (INR (g_nlat g - 1) * res / 180 * mget d i j - Derive (f j) (nth i (g_phi g) 0))
         <= cst o * (PI / INR (g_nlat g - 1)) ^ ord o * M.
Proof.
  intros res rs om nt g Hg o a nc f M Hd Hn Hs.
  eexists. split; [apply (dm_2d g o); auto using shaped_mat_of|].
  split; [apply shaped_mat_of|]. intros i j Hi Hj. rewrite mget_mat_of by auto.
  rewrite (st_ext o _ _ (fun k => f j (nth k (g_phi g) 0))); auto.
  2:{ intros k Hk. now rewrite mget_mat_of. }
  rewrite (st_phi _ _ _ _ _ Hg o i (f j)) by auto. rewrite (phi_form _ _ _ _ _ Hg) by auto.
  rewrite (dphi_hphi _ _ _ _ _ Hg). rewrite <- (abs_hphi _ _ _ _ _ Hg). fold (eta res g).
  pose proof (hphi_ne _ _ _ _ _ Hg). pose proof (eta_pos _ _ _ _ _ Hg).
  set (s := st o (g_nlat g) _ i).
  replace (eta res g * (s / dv o / (eta res g * hphi g))) with (s / dv o / hphi g) by (destruct o; simpl; field; split; auto; lra).
  apply smooth_error; auto. intros k Hk. now apply (phi_in _ _ _ _ _ _ Hg).
Qed.
Print Assumptions C125_accuracy_field.

(** the same for the squared stationary wavenumber *)
Theorem C125_wavenumber res rs om nt g o order u u1 pv (Q : R -> R) M min_u : mk_grid res rs om nt = Ok g ->
  denotes order o -> (S (ord o) <= g_nlat g)%nat -> 0 <= min_u ->
  profile_of g u u1 -> profile_of g pv (map Q (g_phi g)) -> smooth_bounded (ord o) Q M ->
  exists sq, stationary_wavenumber g u (Some pv) order min_u "squared" = Ok (KsReal sq) /\ length sq = g_nlat g
    /\ forall i, (0 < i < g_nlat g - 1)%nat -> min_u < Rabs (nth i u1 0) ->
         let phi := nth i (g_phi g) 0 in
         exists x, nth i sq NaN = Fin x
           /\ Rabs (INR (g_nlat g - 1) * res / 180 * x - rs * cos phi ^ 2 * Derive Q phi / nth i u1 0)
              <= Rabs rs * cos phi ^ 2 / Rabs (nth i u1 0) * (cst o * (PI / INR (g_nlat g - 1)) ^ ord o * M).
Proof.
  intros Hg Hd Hn Hm Hu Hq HQ.
  destruct (C125_accuracy_profile _ _ _ _ _ Hg o order Q M Hd Hn HQ) as [dq [Edq [_ Hdq]]].
  destruct (C72_squared _ _ _ _ _ _ _ _ _ _ _ _ _ Hg Hd Hn Hm Hu Hq Edq) as [sq [Esq [Lsq [_ [_ H]]]]].
  exists sq. split; [exact Esq|]. split; [exact Lsq|]. intros i Hr Hw phi.
  eexists. split; [apply (proj1 (H i ltac:(lia))); exact Hw|]. fold phi. set (e := INR (g_nlat g - 1) * res / 180) in *.
  assert (Hu0 : nth i u1 0 <> 0). { intros E. rewrite E, Rabs_R0 in Hw. lra. }
  replace (e * (rs * cos phi ^ 2 * nth i dq 0 / nth i u1 0) - rs * cos phi ^ 2 * Derive Q phi / nth i u1 0)
    with (rs * cos phi ^ 2 / nth i u1 0 * (e * nth i dq 0 - Derive Q phi)) by (field; exact Hu0).
  rewrite Rabs_mult. unfold Rdiv at 1 2. rewrite !Rabs_mult, Rabs_inv.
  rewrite (Rabs_pos_eq (cos phi ^ 2)) by apply pow2_ge_0.
  apply Rmult_le_compat_l.
  - apply Rmult_le_pos; [apply Rmult_le_pos; [apply Rabs_pos|apply pow2_ge_0]|].
    apply Rlt_le, Rinv_0_lt_compat. now apply Rabs_pos_lt.
  - apply (Hdq i Hr).
Qed.
Print Assumptions C125_wavenumber.

(** an upper bound for the error of the derivative itself *)
Theorem C125_error : forall res rs om nt g, mk_grid res rs om nt = Ok g ->
  forall o a (f : R -> R) M, denotes a o -> (S (ord o) <= g_nlat g)%nat -> smooth_bounded (ord o) f M ->
  exists d, derivative_meridional g (A1 (map f (g_phi g))) a = Ok (A1 d) /\ length d = g_nlat g
    /\ forall i, (0 < i < g_nlat g - 1)%nat ->
         (1 - res / 180) * Rabs (nth i d 0 - Derive f (nth i (g_phi g) 0))
         <= cst o * (PI / INR (g_nlat g - 1)) ^ ord o * M + res / 180 * Rabs (Derive f (nth i (g_phi g) 0)).
Proof.
  intros res rs om nt g Hg o a f M Hd Hn Hs. destruct (C125_accuracy_profile _ _ _ _ _ Hg o a f M Hd Hn Hs) as [d [E [L H]]].
  destruct (C125_factor _ _ _ _ _ Hg) as [[F1 F2] _]. set (e := INR (g_nlat g - 1) * res / 180) in *.
  exists d. split; [exact E|]. split; [exact L|]. intros i Hi. specialize (H i Hi). fold e in H. set (x := nth i d 0) in *. set (y := Derive f _) in *.
  apply Rle_trans with (e * Rabs (x - y)); [apply Rmult_le_compat_r; [apply Rabs_pos|lra]|].
  assert (Pe : 0 <= e). { pose proof (eta_pos _ _ _ _ _ Hg) as P. unfold eta in P. fold e in P. lra. }
  rewrite <- (Rabs_pos_eq e Pe) at 1. rewrite <- Rabs_mult.
  replace (e * (x - y)) with ((e * x - y) + (1 - e) * y) by ring.
  eapply Rle_trans; [apply Rabs_triang|]. apply Rplus_le_compat; [exact H|].
  rewrite Rabs_mult, (Rabs_pos_eq (1 - e)) by lra. apply Rmult_le_compat_r; [apply Rabs_pos|lra].
Qed.
Print Assumptions C125_error.

(** the 7-degree grid: 25 intervals, factor 35/36, and a smooth function *)
Example C125_nonvacuous : exists g, mk_grid 7 1 1 None = Ok g /\ (S (ord O4) <= g_nlat g)%nat
  /\ INR (g_nlat g - 1) * 7 / 180 = 35 / 36 /\ denotes ONone O4 /\ smooth_bounded (ord O4) sin 1 /\ (length [1; 2; 3; 0; 5] <= S (ord O4))%nat.
Proof.
  destruct grid7 as [g [Hg [_ [Hl _]]]]. exists g. split; [exact Hg|]. rewrite Hl. split; [simpl; lia|].
  split; [rewrite INR_IZR_INZ; simpl; field|]. split; [now right|]. split; [exact (proj1 smooth_example)|simpl; lia].
Qed.
