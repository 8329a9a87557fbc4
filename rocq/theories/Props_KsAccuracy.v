(** Accuracy of the stationary wavenumber: C122. *)
From Coq Require Export String.
From Verif Require Import Base Model_Grid Spec_Grid Model_Deriv Spec_Deriv Proofs_Base Proofs_Grid Proofs_Region Proofs_Deriv Model_Ks Spec_Ks Proofs_Ks Props_Deriv Props_Ks.
From Coquelicot Require Import Coquelicot.
From Verif Require Import Model_Region.
From Coq Require Import List Lia Lra.
Open Scope R_scope.

Lemma sin_derivs :
  (forall x, Derive_n sin 1 x = cos x) /\ (forall x, Derive_n sin 2 x = - sin x) /\ (forall x, Derive_n sin 3 x = - cos x)
  /\ (forall x, Derive_n sin 4 x = sin x) /\ (forall x, Derive_n sin 5 x = cos x).
Proof.
  assert (D : forall x, is_derive sin x (cos x)) by (intros; auto_derive; [auto|ring]).
  assert (E1 : forall x, Derive_n sin 1 x = cos x) by (intros; now apply is_derive_unique).
  assert (E2 : forall x, Derive_n sin 2 x = - sin x).
  { intros x. change (Derive_n sin 2 x) with (Derive (Derive_n sin 1) x).
    rewrite (Derive_ext _ cos) by auto. apply is_derive_unique. auto_derive; [auto|ring]. }
  assert (E3 : forall x, Derive_n sin 3 x = - cos x).
  { intros x. change (Derive_n sin 3 x) with (Derive (Derive_n sin 2) x).
    rewrite (Derive_ext _ (fun t => - sin t)) by auto. apply is_derive_unique. auto_derive; [auto|ring]. }
  assert (E4 : forall x, Derive_n sin 4 x = sin x).
  { intros x. change (Derive_n sin 4 x) with (Derive (Derive_n sin 3) x).
    rewrite (Derive_ext _ (fun t => - cos t)) by auto. apply is_derive_unique. auto_derive; [auto|ring]. }
  repeat split; auto.
  intros x. change (Derive_n sin 5 x) with (Derive (Derive_n sin 4) x).
  rewrite (Derive_ext _ sin) by auto. now apply is_derive_unique.
Qed.

Lemma smooth_sin o c : smooth_bounded (ord o) (fun t => c * sin t) (Rabs c).
Proof.
  destruct smooth_example as [[S4 _] _]. destruct sin_derivs as [_ [_ [E3 [_ E5]]]].
  split.
  - intros t k Hk. apply ex_derive_n_scal_l. apply S4. destruct o; simpl in Hk; lia.
  - intros t _. rewrite Derive_n_scal_l, Rabs_mult.
    rewrite <- (Rmult_1_r (Rabs c)) at 2. apply Rmult_le_compat_l; [apply Rabs_pos|].
    destruct (COS_bound t) as [A B].
    destruct o; simpl ord; [rewrite E3|rewrite E5]; apply Rabs_le; lra.
Qed.

(** ** C122 *)
(** The PV profile samples a smooth function Q of latitude: at every latitude
    between the poles whose wind exceeds the threshold, Ks squared differs from
    r cos^2(phi) Q'(phi) / u by at most the error of the finite difference times
    r cos^2(phi) / |u|.  For resolutions which divide 180. *)
Theorem C122_accuracy_partial res rs om nt g o order u u1 pv (Q : R -> R) M min_u : mk_grid res rs om nt = Ok g ->
  denotes order o -> (S (ord o) <= g_nlat g)%nat -> is_integer (180 / res) -> 0 <= min_u ->
  profile_of g u u1 -> profile_of g pv (map Q (g_phi g)) -> smooth_bounded (ord o) Q M ->
  exists sq, stationary_wavenumber g u (Some pv) order min_u "squared" = Ok (KsReal sq) /\ length sq = g_nlat g
    /\ forall i, (0 < i < g_nlat g - 1)%nat -> min_u < Rabs (nth i u1 0) ->
         let phi := nth i (g_phi g) 0 in
         exists x, nth i sq NaN = Fin x
           /\ Rabs (x - rs * cos phi ^ 2 * Derive Q phi / nth i u1 0)
              <= Rabs rs * cos phi ^ 2 / Rabs (nth i u1 0) * (cst o * Rabs (g_dphi g) ^ ord o * M).
Proof.
  intros Hg Hd Hn Hi Hm Hu Hq HQ.
  destruct (C18_accuracy_profile_partial _ _ _ _ _ Hg o order Q M Hd Hn Hi HQ) as [dq [Edq [_ Hdq]]].
  destruct (C72_squared _ _ _ _ _ _ _ _ _ _ _ _ _ Hg Hd Hn Hm Hu Hq Edq) as [sq [Esq [Lsq [_ [_ H]]]]].
  exists sq. split; [exact Esq|]. split; [exact Lsq|]. intros i Hr Hw phi.
  eexists. split; [apply (proj1 (H i ltac:(lia))); exact Hw|]. fold phi.
  assert (Hu0 : nth i u1 0 <> 0). { intros E. rewrite E, Rabs_R0 in Hw. lra. }
  replace (rs * cos phi ^ 2 * nth i dq 0 / nth i u1 0 - rs * cos phi ^ 2 * Derive Q phi / nth i u1 0)
    with (rs * cos phi ^ 2 / nth i u1 0 * (nth i dq 0 - Derive Q phi)) by (field; exact Hu0).
  rewrite Rabs_mult. unfold Rdiv. rewrite !Rabs_mult, Rabs_inv.
  rewrite (Rabs_pos_eq (cos phi ^ 2)) by apply pow2_ge_0.
  apply Rmult_le_compat_l.
  - apply Rmult_le_pos; [apply Rmult_le_pos; [apply Rabs_pos|apply pow2_ge_0]|].
    apply Rlt_le, Rinv_0_lt_compat. now apply Rabs_pos_lt.
  - apply (Hdq i Hr).
Qed.
Print Assumptions C122_accuracy_partial.

(** Solid-body rotation u = U cos(phi), whose absolute vorticity is
    2 (Omega + U/r) sin(phi): Ks squared is 2 cos^2(phi) (1 + Omega r / U) up to
    the finite-difference error. *)
Theorem C122_solid_body_partial res rs om nt g o order u pv U min_u : mk_grid res rs om nt = Ok g -> 0 < rs ->
  denotes order o -> (S (ord o) <= g_nlat g)%nat -> is_integer (180 / res) -> 0 <= min_u -> U <> 0 ->
  profile_of g u (map (fun phi => U * cos phi) (g_phi g)) ->
  profile_of g pv (map (fun phi => 2 * (om + U / rs) * sin phi) (g_phi g)) ->
  exists sq, stationary_wavenumber g u (Some pv) order min_u "squared" = Ok (KsReal sq) /\ length sq = g_nlat g
    /\ forall i, (0 < i < g_nlat g - 1)%nat -> let phi := nth i (g_phi g) 0 in min_u < Rabs U * cos phi ->
         exists x, nth i sq NaN = Fin x
           /\ Rabs (x - 2 * cos phi ^ 2 * (1 + om * rs / U))
              <= 2 * cos phi * Rabs (1 + om * rs / U) * (cst o * Rabs (g_dphi g) ^ ord o).
Proof.
  intros Hg Hrs Hd Hn Hi Hm HU Hu Hq.
  destruct (C122_accuracy_partial _ _ _ _ _ _ _ _ _ _ _ _ _ Hg Hd Hn Hi Hm Hu Hq (smooth_sin o (2 * (om + U / rs))))
    as [sq [E [L H]]].
  exists sq. split; [exact E|]. split; [exact L|]. intros i Hr phi Hw.
  assert (Lp : length (g_phi g) = g_nlat g).
  { destruct Hu as [Lu _]. now rewrite map_length in Lu. }
  assert (Eu : nth i (map (fun phi => U * cos phi) (g_phi g)) 0 = U * cos phi).
  { rewrite (nth_indep _ 0 (U * cos 0)) by (rewrite map_length; lia).
    now rewrite (map_nth (fun phi => U * cos phi)). }
  assert (Hc : 0 < cos phi).
  { assert (P : 0 < Rabs U) by now apply Rabs_pos_lt.
    apply Rmult_lt_reg_l with (Rabs U); [exact P|]. lra. }
  assert (EA : Rabs (U * cos phi) = Rabs U * cos phi) by (rewrite Rabs_mult, (Rabs_pos_eq (cos phi)); lra).
  specialize (H i Hr). rewrite Eu, EA in H. specialize (H Hw). cbv zeta in H. fold phi in H.
  destruct H as [x [Ex Hx]]. exists x. split; [exact Ex|].
  assert (ED : Derive (fun t => 2 * (om + U / rs) * sin t) phi = 2 * (om + U / rs) * cos phi).
  { apply is_derive_unique. auto_derive; [auto|ring]. }
  rewrite ED in Hx.
  replace (rs * cos phi ^ 2 * (2 * (om + U / rs) * cos phi) / (U * cos phi))
    with (2 * cos phi ^ 2 * (1 + om * rs / U)) in Hx by (field; repeat split; lra).
  eapply Rle_trans; [exact Hx|]. apply Req_le.
  replace (2 * (om + U / rs)) with (2 * (U * / rs) * (1 + om * rs / U)) by (field; repeat split; lra).
  rewrite !Rabs_mult, Rabs_inv, (Rabs_pos_eq 2), (Rabs_pos_eq rs) by lra.
  assert (Rabs U <> 0) by now apply Rabs_no_R0.
  field. repeat split; try lra; auto.
Qed.
Print Assumptions C122_solid_body_partial.

(** Westerly solid-body rotation has a real wavenumber, easterly solid-body
    rotation slower than the planet an imaginary one, at every latitude whose
    cosine exceeds the finite-difference error. *)
Theorem C122_sign_partial res rs om nt g o order u pv U min_u : mk_grid res rs om nt = Ok g -> 0 < rs -> 0 <= om ->
  denotes order o -> (S (ord o) <= g_nlat g)%nat -> is_integer (180 / res) -> 0 <= min_u -> - (om * rs) < U -> U <> 0 ->
  profile_of g u (map (fun phi => U * cos phi) (g_phi g)) ->
  profile_of g pv (map (fun phi => 2 * (om + U / rs) * sin phi) (g_phi g)) ->
  exists sq, stationary_wavenumber g u (Some pv) order min_u "squared" = Ok (KsReal sq) /\ length sq = g_nlat g
    /\ forall i, (0 < i < g_nlat g - 1)%nat -> let phi := nth i (g_phi g) 0 in
         min_u < Rabs U * cos phi -> cst o * Rabs (g_dphi g) ^ ord o < cos phi ->
         exists x, nth i sq NaN = Fin x /\ (0 < x <-> 0 < U) /\ (x < 0 <-> U < 0).
Proof.
  intros Hg Hrs Hom Hd Hn Hi Hm Hs HU Hu Hq.
  destruct (C122_solid_body_partial _ _ _ _ _ _ _ _ _ _ _ Hg Hrs Hd Hn Hi Hm HU Hu Hq) as [sq [E [L H]]].
  exists sq. split; [exact E|]. split; [exact L|]. intros i Hr phi Hw He.
  destruct (H i Hr Hw) as [x [Ex Hx]]. fold phi in Hx. exists x. split; [exact Ex|].
  assert (Hc : 0 < cos phi).
  { assert (P : 0 < Rabs U) by now apply Rabs_pos_lt.
    apply Rmult_lt_reg_l with (Rabs U); [exact P|]. lra. }
  set (k := 1 + om * rs / U) in *. set (e := cst o * Rabs (g_dphi g) ^ ord o) in *.
  assert (Ek : k = (U + om * rs) * / U) by (unfold k; field; exact HU).
  assert (Habs : - (2 * cos phi * Rabs k * e) <= x - 2 * cos phi ^ 2 * k <= 2 * cos phi * Rabs k * e).
  { revert Hx. unfold Rabs at 1. destruct (Rcase_abs _); lra. }
  destruct (Rlt_dec 0 U) as [HU0|HU0].
  - assert (K : 0 < k). { rewrite Ek. apply Rmult_lt_0_compat; [lra|]. now apply Rinv_0_lt_compat. }
    rewrite (Rabs_pos_eq k) in Habs by lra.
    assert (0 < 2 * cos phi * k * (cos phi - e)) by (repeat apply Rmult_lt_0_compat; lra).
    assert (0 < x) by nra. split; split; lra.
  - assert (K : k < 0).
    { rewrite Ek. assert (/ U < 0) by (apply Rinv_lt_0_compat; lra). nra. }
    rewrite (Rabs_left k) in Habs by lra.
    assert (0 < 2 * cos phi * (- k) * (cos phi - e)) by (repeat apply Rmult_lt_0_compat; lra).
    assert (x < 0) by nra. split; split; lra.
Qed.
Print Assumptions C122_sign_partial.

(** For resolution 7 the nominal spacing is not the actual one: for the PV
    profile Q(phi) = phi, whose higher derivatives vanish, every value between
    the poles is too large by the factor 36/35. *)
Theorem C122_accuracy_refuted : exists g u sq, mk_grid 7 1 1 None = Ok g
  /\ smooth_bounded 4 (fun t => t) 0 /\ profile_of g (A1 u) u /\ (forall i, (i < g_nlat g)%nat -> nth i u 0 = 1)
  /\ stationary_wavenumber g (A1 u) (Some (A1 (map (fun t => t) (g_phi g)))) ONone 0 "squared" = Ok (KsReal sq)
  /\ forall i, (0 < i < g_nlat g - 1)%nat ->
       exists x, nth i sq NaN = Fin x /\ x = 36 / 35 * (cos (nth i (g_phi g) 0) ^ 2 * Derive (fun t => t) (nth i (g_phi g) 0)).
Proof.
  destruct C17_exact_refuted as [g [dq [Hg [Edq [Hdq _]]]]].
  destruct C18_accuracy_refuted as [_ [_ [_ [SB _]]]].
  exists g, (tab (g_nlat g) (fun _ => 1)).
  assert (Pu : profile_of g (A1 (tab (g_nlat g) (fun _ => 1))) (tab (g_nlat g) (fun _ => 1))).
  { split; [apply tab_length|now left]. }
  assert (Pq : profile_of g (A1 (map (fun t => t) (g_phi g))) (g_phi g)).
  { split; [apply phi_length|]. left. now rewrite map_id. }
  assert (Hn : (S (ord O4) <= g_nlat g)%nat).
  { destruct grid7 as [g' [Hg' [_ [Hl _]]]]. rewrite Hg in Hg'. apply Ok_inj in Hg'. subst g'. rewrite Hl. simpl. lia. }
  destruct (C72_squared _ _ _ _ _ O4 ONone _ _ _ _ _ _ Hg ltac:(now right) Hn (Rle_refl 0) Pu Pq Edq)
    as [sq [Esq [_ [_ [_ H]]]]].
  exists sq. split; [exact Hg|]. split; [exact SB|]. split; [exact Pu|].
  split; [intros i Hi; now rewrite tab_nth by exact Hi|]. split; [exact Esq|].
  intros i Hi. specialize (H i ltac:(lia)). rewrite tab_nth, (Hdq i Hi) in H by lia.
  eexists. split; [apply (proj1 H); rewrite Rabs_R1; lra|].
  rewrite (is_derive_unique (fun t => t) _ 1) by apply (is_derive_id (K := R_AbsRing)). field.
Qed.
Print Assumptions C122_accuracy_refuted.

(** a westerly solid-body rotation of 20 m/s on the 10-degree grid of the Earth,
    and the equator as a latitude where the theorems apply *)
Example C122_nonvacuous : exists g, mk_grid 10 6371200 (7292 / 100000000) None = Ok g
  /\ (S (ord O4) <= g_nlat g)%nat /\ is_integer (180 / 10) /\ denotes ONone O4
  /\ profile_of g (A1 (map (fun phi => 20 * cos phi) (g_phi g))) (map (fun phi => 20 * cos phi) (g_phi g))
  /\ (0 < 9 < g_nlat g - 1)%nat /\ nth 9 (g_phi g) 0 = 0 /\ 1 < Rabs 20 * cos (nth 9 (g_phi g) 0)
  /\ cst O4 * Rabs (g_dphi g) ^ ord O4 < cos (nth 9 (g_phi g) 0).
Proof.
  destruct grid10 as [g [Hg [_ Hl]]]. exists g. split; [exact Hg|].
  split; [rewrite Hl; simpl; lia|]. split; [exists 18%Z; lra|]. split; [now right|].
  split; [split; [now rewrite map_length, phi_length|now left]|]. split; [rewrite Hl; lia|].
  pose proof (mk_grid_facts _ _ _ _ _ Hg) as F.
  assert (E : nth 9 (g_phi g) 0 = 0).
  { rewrite (phi_form _ _ _ _ _ Hg) by (rewrite Hl; lia). unfold hphi. rewrite Hl.
    rewrite !INR_IZR_INZ. simpl. field. }
  rewrite E, cos_0. split; [reflexivity|]. split; [rewrite Rabs_pos_eq; lra|].
  rewrite (dphi_val _ _ _ _ _ Hg). rewrite Rabs_Ropp, Rabs_pos_eq by (pose proof PI_RGT_0; lra).
  pose proof PI_RGT_0. pose proof PI_4. simpl ord. unfold cst.
  assert (A : PI * 10 / 180 <= 4 / 18) by lra.
  apply Rle_lt_trans with (17 / 3 * (4 / 18) ^ 4); [|lra].
  apply Rmult_le_compat_l; [lra|]. apply pow_incr. lra.
Qed.
