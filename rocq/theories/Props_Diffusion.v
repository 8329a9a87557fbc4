(** C137: what diffusion does to energy, enstrophy and angular momentum. *)
From Coq Require Export String.
From Verif Require Import Base Model_Grid Model_Time Model_Spectral Model_State Model_Run Model_Init.
From Verif Require Import Spec_Grid Spec_Spectral Spec_State Spec_Instance Spec_Run Spec_Symmetry Spec_Relax Spec_Waves Spec_Harmonics Spec_Conserve.
From Verif Require Import Proofs_Base Proofs_Trig Proofs_Grid Proofs_Spectral Proofs_Instance Proofs_State Proofs_Run Proofs_Step Proofs_Relax Proofs_WaveRec Proofs_Waves Proofs_HarmSum Proofs_Harmonics Proofs_HarmProd Proofs_HarmCons Proofs_Conserve Proofs_Diffusion.
From Verif Require Import Props_Symmetry Props_Waves Props_Harmonics Props_Conserve Props_Relax.
From Coquelicot Require Import Coquelicot.
From Coq Require Import List Lia Lra.
Import ListNotations.
Open Scope R_scope.

(** C137: a step of diffusion without background never increases the mean enstrophy, and
    reduces it unless PV is uniform *)
Theorem C137_enstrophy : forall K res rs om nt g, mk_grid res rs om nt = Ok g -> forall D, (2 * D < g_nlat g)%nat -> (2 * D < g_nlon g)%nat ->
  forall (M : bmodel K) (s : state K) h, m_bg M = None -> 0 <= h * m_coeff M -> s_grid s = g -> length (s_pvs s) = nspec (g_ntrunc g) -> resolved (sph (harmonics D) g) (g_ntrunc g) (s_pvs s) ->
  let s' := mkState g (s_time s) (apply_diffusion (harmonics D) M g h (s_pvs s)) in
  mean_enstrophy (harmonics D) s' <= mean_enstrophy (harmonics D) s
  /\ (0 < h * m_coeff M -> (exists k, (k < nspec (g_ntrunc g))%nat /\ (1 <= degree (g_ntrunc g) k)%nat /\ coef (s_pvs s) k <> RtoC 0) -> mean_enstrophy (harmonics D) s' < mean_enstrophy (harmonics D) s).
Proof.
  intros K res rs om nt g Hg D A B M s h HB HC G X R s'. pose proof (plain_iff _ _ _ _ _ Hg D A B s G X R) as S. pose proof (diffused_plain _ _ _ _ _ Hg D A B M h HC _ (proj2 S)) as P'.
  assert (S' : plain_state g D s') by (split; [reflexivity|exact P']).
  assert (C : forall k, (k < nspec (g_ntrunc g))%nat -> coef (s_pvs s') k = Cmult (RtoC (damping g M h k)) (coef (s_pvs s) k)).
  { intros k Hk. unfold s'. cbn [s_pvs]. unfold apply_diffusion. rewrite HB. now apply (damped_coef _ _ _ _ _ Hg). }
  rewrite (enstrophy_common g D s' S'), (enstrophy_common g D s S), (common_enstrophy_eq res rs om nt g Hg D A B s' s' S' S'), (common_enstrophy_eq res rs om nt g Hg D A B s s S S). split.
  - pose proof (inner_damped _ _ _ _ _ Hg M h HC (s_pvs s) (s_pvs s') C). lra.
  - intros HP [k [Hk [Dk Nk]]]. pose proof (inner_damped_strict _ _ _ _ _ Hg M h HC (s_pvs s) (s_pvs s') k C Hk (damping_strict _ _ _ _ _ Hg D A B M h k HP (or_introl Dk)) Nk). lra.
Qed.
Print Assumptions C137_enstrophy.

(** With the planetary vorticity as background, diffusion never increases the mean kinetic
    energy, and the angular momentum shrinks by a fixed factor. *)
Theorem C137_energy : forall K res rs om nt g, mk_grid res rs om nt = Ok g -> forall D, (2 * D < g_nlat g)%nat -> (2 * D < g_nlon g)%nat ->
  forall (M : bmodel K) (s : state K) h, m_bg M = Some (g_fcor2 g) -> 0 <= h * m_coeff M -> s_grid s = g -> length (s_pvs s) = nspec (g_ntrunc g) -> resolved (sph (harmonics D) g) (g_ntrunc g) (s_pvs s) ->
  let s' := mkState g (s_time s) (apply_diffusion (harmonics D) M g h (s_pvs s)) in
  mean_energy (harmonics D) s' <= mean_energy (harmonics D) s
  /\ ((1 <= D)%nat -> (1 <= g_ntrunc g)%nat -> momentum (harmonics D) s' = momentum (harmonics D) s / (1 + h * m_coeff M * (2 / g_rsphere g ^ 2) ^ m_order M)).
Proof.
  intros K res rs om nt g Hg D A B M s h HB HC G X R s'. pose proof (plain_iff _ _ _ _ _ Hg D A B s G X R) as S. pose proof (diffused_plain _ _ _ _ _ Hg D A B M h HC _ (proj2 S)) as P'.
  assert (S' : plain_state g D s') by (split; [reflexivity|exact P']).
  assert (C : forall k, (k < nspec (g_ntrunc g))%nat -> Cminus (coef (s_pvs s') k) (coef (fcor2_spectral (harmonics D) g) k) = Cmult (RtoC (damping g M h k)) (Cminus (coef (s_pvs s) k) (coef (fcor2_spectral (harmonics D) g) k))).
  { intros k Hk. now apply (bg_coef _ _ _ _ _ Hg D A B M h (s_pvs s) k HC HB (proj2 S)). }
  split.
  - rewrite (energy_common g D s' S'), (energy_common g D s S), (common_energy_eq res rs om nt g Hg D A B s' s' S' S'), (common_energy_eq res rs om nt g Hg D A B s s S S).
    pose proof (vo_plain _ _ _ _ _ Hg D A B s S) as V. pose proof (vo_plain _ _ _ _ _ Hg D A B s' S') as V'.
    assert (Q : een g (s_vorticity_spectral (harmonics D) s') (s_vorticity_spectral (harmonics D) s') <= een g (s_vorticity_spectral (harmonics D) s) (s_vorticity_spectral (harmonics D) s)); [|lra].
    apply (een_damped _ _ _ _ _ Hg D A B M h HC _ _ V V'). intros k Hk. specialize (C k Hk).
    rewrite (vo_coef _ _ _ _ _ Hg D A B s' k S' Hk), (vo_coef _ _ _ _ _ Hg D A B s k S Hk), !Proofs_Harmonics.RtoC_m1.
    replace (Cplus (Cmult (RtoC 1) (coef (s_pvs s') k)) (Cmult (Copp (RtoC 1)) (coef (fcor2_spectral (harmonics D) g) k))) with (Cminus (coef (s_pvs s') k) (coef (fcor2_spectral (harmonics D) g) k)) by ring.
    rewrite C. f_equal. ring.
  - intros D1 N1. assert (H1 : (1 < nspec (g_ntrunc g))%nat) by (destruct (g_ntrunc g); [lia|]; rewrite nspec_S; lia).
    rewrite (momentum_value _ _ _ _ _ Hg D A B s' D1 N1 S'), (momentum_value _ _ _ _ _ Hg D A B s D1 N1 S). specialize (C 1%nat H1). rewrite (fcor2_coef_1 _ _ _ _ _ Hg D A B D1 N1) in C.
    pose proof (damping_1 _ _ _ _ _ Hg D A B M h N1) as DW. unfold Rdiv in DW |- *. rewrite <- DW. set (w := damping g M h 1) in *. destruct (coef (s_pvs s') 1) as [a b], (coef (s_pvs s) 1) as [c d]. cbn in *.
    apply (f_equal fst) in C. cbn in C. replace (a - g_omega g) with (w * (c - g_omega g)) by lra. ring.
Qed.
Print Assumptions C137_energy.

(** Without background it is the rotation of planet and flow together that slows down:
    the absolute angular momentum shrinks by this factor. *)
Theorem C137_absolute : forall K res rs om nt g, mk_grid res rs om nt = Ok g -> forall D, (1 <= D)%nat -> (1 <= g_ntrunc g)%nat -> (2 * D < g_nlat g)%nat -> (2 * D < g_nlon g)%nat ->
  forall (M : bmodel K) (s : state K) h, m_bg M = None -> 0 <= h * m_coeff M -> s_grid s = g -> length (s_pvs s) = nspec (g_ntrunc g) -> resolved (sph (harmonics D) g) (g_ntrunc g) (s_pvs s) ->
  let s' := mkState g (s_time s) (apply_diffusion (harmonics D) M g h (s_pvs s)) in
  let planet := 2 / 3 * g_omega g * g_rsphere g ^ 2 in
  momentum (harmonics D) s' + planet = (momentum (harmonics D) s + planet) / (1 + h * m_coeff M * (2 / g_rsphere g ^ 2) ^ m_order M).
Proof.
  intros K res rs om nt g Hg D D1 N1 A B M s h HB HC G X R s' planet. pose proof (plain_iff _ _ _ _ _ Hg D A B s G X R) as S. pose proof (diffused_plain _ _ _ _ _ Hg D A B M h HC _ (proj2 S)) as P'.
  assert (S' : plain_state g D s') by (split; [reflexivity|exact P']). assert (H1 : (1 < nspec (g_ntrunc g))%nat) by (destruct (g_ntrunc g); [lia|]; rewrite nspec_S; lia).
  assert (C : coef (s_pvs s') 1 = Cmult (RtoC (damping g M h 1)) (coef (s_pvs s) 1)).
  { unfold s'. cbn [s_pvs]. unfold apply_diffusion. rewrite HB. now apply (damped_coef _ _ _ _ _ Hg). }
  rewrite (momentum_value _ _ _ _ _ Hg D A B s' D1 N1 S'), (momentum_value _ _ _ _ _ Hg D A B s D1 N1 S), C. unfold planet. pose proof (damping_1 _ _ _ _ _ Hg D A B M h N1) as DW. unfold Rdiv in DW |- *. rewrite <- DW.
  destruct (coef (s_pvs s) 1). cbn. ring.
Qed.
Print Assumptions C137_absolute.

(** So without background an atmosphere at rest is set into motion, against the rotation
    of the planet: diffusion can increase the energy. *)
Theorem C137_rest_refuted : forall K res rs om nt g, mk_grid res rs om nt = Ok g -> forall D, (1 <= D)%nat -> (1 <= g_ntrunc g)%nat -> (2 * D < g_nlat g)%nat -> (2 * D < g_nlon g)%nat ->
  forall (M : bmodel K) t (s : state K) h, m_bg M = None -> 0 < h * m_coeff M -> 0 < g_omega g -> motionless (harmonics D) g t = Ok s ->
  let s' := mkState g (s_time s) (apply_diffusion (harmonics D) M g h (s_pvs s)) in
  mean_energy (harmonics D) s = 0 /\ momentum (harmonics D) s = 0 /\ 0 < mean_energy (harmonics D) s' /\ momentum (harmonics D) s' < 0.
Proof.
  intros K res rs om nt g Hg D D1 N1 A B M t s h HB HP HO HS s'. injection HS as <-. fold (fcor2_spectral (harmonics D) g) in *. set (s := mkState g t (fcor2_spectral (harmonics D) g)) in *.
  assert (HC : 0 <= h * m_coeff M) by lra. pose proof (plain_analysis _ _ _ _ _ Hg D A B (g_fcor2 g)) as P. fold (fcor2_spectral (harmonics D) g) in P.
  assert (S : plain_state g D s) by (split; [reflexivity|exact P]). pose proof (diffused_plain _ _ _ _ _ Hg D A B M h HC _ P) as P'.
  assert (S' : plain_state g D s') by (split; [reflexivity|exact P']). assert (H1 : (1 < nspec (g_ntrunc g))%nat) by (destruct (g_ntrunc g); [lia|]; rewrite nspec_S; lia).
  assert (C : forall k, (k < nspec (g_ntrunc g))%nat -> coef (s_pvs s') k = Cmult (RtoC (damping g M h k)) (coef (s_pvs s) k)).
  { intros k Hk. unfold s'. cbn [s_pvs]. unfold apply_diffusion. rewrite HB. apply (damped_coef _ _ _ _ _ Hg); auto. apply (plain_length _ _ _ P). }
  pose proof (damping_strict _ _ _ _ _ Hg D A B M h 1 HP ltac:(left; rewrite (degree_1 g D A B N1); lia)) as W. pose proof (fcor2_coef_1 _ _ _ _ _ Hg D A B D1 N1) as F1. pose proof (Hr _ _ _ _ _ Hg) as R0.
  assert (R2 : 0 < g_rsphere g ^ 2) by now apply pow_lt.
  pose proof (vo_plain _ _ _ _ _ Hg D A B s S) as V. pose proof (vo_plain _ _ _ _ _ Hg D A B s' S') as V'. split; [|split; [|split]].
  - rewrite (energy_common g D s S), (common_energy_eq res rs om nt g Hg D A B s s S S), (een_terms g D _ _ V). rewrite Rsum_tab_zero; [ring|]. intros k Hk.
    rewrite (vo_coef _ _ _ _ _ Hg D A B s k S Hk). cbn [s_pvs s]. destruct (Nat.eqb (degree (g_ntrunc g) k) 0); [reflexivity|]. destruct (coef (fcor2_spectral (harmonics D) g) k). unfold cdot. cbn. ring.
  - rewrite (momentum_value _ _ _ _ _ Hg D A B s D1 N1 S). cbn [s_pvs s]. rewrite F1. cbn. ring.
  - rewrite (energy_common g D s' S'), (common_energy_eq res rs om nt g Hg D A B s' s' S' S'), (een_terms g D _ _ V'). apply Rmult_lt_0_compat; [lra|].
    apply Rle_lt_trans with (Rsum (tab (nspec (g_ntrunc g)) (fun _ => 0))); [right; symmetry; now apply Rsum_tab_zero|]. apply (Rsum_tab_lt _ _ _ 1); [intros k Hk; now apply (een_term _ _ _ _ _ Hg D A B)|exact H1|].
    rewrite (degree_1 g D A B N1). cbn [Nat.eqb]. pose proof (eig_pos _ R0 1 ltac:(lia)) as E1. apply Rinv_0_lt_compat in E1. apply Rmult_lt_0_compat; [exact E1|].
    pose proof (order_degree (g_ntrunc g) 1 H1) as [O _]. rewrite (degree_1 g D A B N1) in O. apply Rmult_lt_0_compat; [now apply mean_square_pos|].
    rewrite (vo_coef _ _ _ _ _ Hg D A B s' 1 S' H1), C by exact H1. cbn [s_pvs s]. rewrite F1. unfold cdot. assert (PW : 0 < (g_omega g * (1 - damping g M h 1)) ^ 2) by (apply pow_lt, Rmult_lt_0_compat; lra). cbn. eapply Rlt_le_trans; [exact PW|]. right. ring.
  - rewrite (momentum_value _ _ _ _ _ Hg D A B s' D1 N1 S'), C by exact H1. cbn [s_pvs s]. rewrite F1. cbn. assert (0 < g_omega g * (1 - damping g M h 1)) by (apply Rmult_lt_0_compat; lra). nra.
Qed.
Print Assumptions C137_rest_refuted.

(** Steps of the model with diffusion: an Euler step adds at most the square of the step
    times the energy and enstrophy of the tendency *)
Theorem C137_euler : forall K res rs om nt g, mk_grid res rs om nt = Ok g -> forall D, (2 * D < g_nlat g)%nat -> (2 * D < g_nlon g)%nat ->
  forall (M : bmodel K) s dt h e t, m_rhs M = None -> 0 <= h * m_coeff M -> s_grid s = g -> length (s_pvs s) = nspec (g_ntrunc g) -> resolved (sph (harmonics D) g) (g_ntrunc g) (s_pvs s) ->
  to_seconds dt = Ok h -> pv_tendency_spectral (harmonics D) M s = Ok t -> euler (harmonics D) M s dt = Ok e ->
  let w := sh_getuv (sph (harmonics D) g) t (repeat (RtoC 0) (nspec (g_ntrunc g))) in
  (m_bg M = Some (g_fcor2 g) -> mean_energy (harmonics D) e <= mean_energy (harmonics D) s + h ^ 2 * sphere_mean g (energy_of (fst w) (snd w)))
  /\ (m_bg M = None -> (3 * D <= g_nlat g)%nat -> (3 * D < g_nlon g)%nat ->
      mean_enstrophy (harmonics D) e <= mean_enstrophy (harmonics D) s + h ^ 2 * sphere_mean g (enstrophy_of (to_grid (harmonics D) g t))).
Proof.
  intros K res rs om nt g Hg D A B M s dt h e t HM HC G X R Hh Et Ee w. pose proof (plain_iff _ _ _ _ _ Hg D A B s G X R) as S.
  destruct (euler_split _ _ _ _ _ Hg D A B M HM s dt h e Hh S Ee) as (e0 & E0 & P0 & Ge & Pe). set (M0 := mkModel (m_rhs M) (m_order M) 0 (m_bg M)) in *.
  assert (Et0 : pv_tendency_spectral (harmonics D) M0 s = Ok t) by (unfold pv_tendency_spectral in *; cbn [m_rhs M0]; exact Et).
  destruct (C134_euler K res rs om nt g Hg D A B M0 s dt h e0 t HM eq_refl G X R Hh Et0 E0) as [H1 [_ H2]]. fold w in H1.
  pose proof P0 as [G0 PP]. pose proof (plain_length _ _ _ PP) as L0.
  assert (R0 : resolved (sph (harmonics D) g) (g_ntrunc g) (s_pvs e0)). { apply (C133_resolved _ _ _ _ _ Hg D A B _ L0). intros k Hk. split; intros W; now apply PP. }
  assert (EQ : forall f : state K -> Rdefinitions.R, (forall a b, s_grid a = s_grid b -> s_pvs a = s_pvs b -> f a = f b) -> f e = f (mkState g (s_time e0) (apply_diffusion (harmonics D) M g h (s_pvs e0)))).
  { intros f Hf. apply Hf; [exact Ge|exact Pe]. }
  split.
  - intros HB. destruct (C137_energy K res rs om nt g Hg D A B M e0 h HB HC G0 L0 R0) as [Q _]. rewrite (EQ (mean_energy (harmonics D))); [lra|].
    intros [ga ta xa] [gb tb xb]. cbn [s_grid s_pvs]. intros -> ->. reflexivity.
  - intros HB A3 B3. destruct (C137_enstrophy K res rs om nt g Hg D A B M e0 h HB HC G0 L0 R0) as [Q _]. destruct (H2 A3 B3) as [H3 _]. rewrite (EQ (mean_enstrophy (harmonics D))); [lra|].
    intros [ga ta xa] [gb tb xb]. cbn [s_grid s_pvs]. intros -> ->. reflexivity.
Qed.
Print Assumptions C137_euler.

(** Integrations with the planetary vorticity as background: the angular momentum is at all
    times between zero and what it was *)
Theorem C137_momentum : forall res rs om nt g, mk_grid res rs om nt = Ok g -> forall D, (1 <= D)%nat -> (1 <= g_ntrunc g)%nat -> (2 * D < g_nlat g)%nat -> (2 * D < g_nlon g)%nat ->
  forall (M : bmodel numR) init dt h i s, m_rhs M = None -> m_bg M = Some (g_fcor2 g) -> 0 <= m_coeff M -> timed init dt h -> 0 < h ->
  s_grid init = g -> length (s_pvs init) = nspec (g_ntrunc g) -> resolved (sph (harmonics D) g) (g_ntrunc g) (s_pvs init) ->
  trajectory (harmonics D) M init dt i s -> exists c, 0 <= c <= 1 /\ momentum (harmonics D) s = c * momentum (harmonics D) init.
Proof.
  intros res rs om nt g Hg D D1 N1 A B M init dt h i s HM HB HC HT Hh G X R [new E]. pose proof (plain_iff _ _ _ _ _ Hg D A B init G X R) as S0.
  destruct (timed_clock _ _ _ HT) as [tm [CK HE]].
  assert (H1 : (1 < nspec (g_ntrunc g))%nat) by (destruct (g_ntrunc g); [lia|]; rewrite nspec_S; lia). pose proof (fcor2_coef_1 _ _ _ _ _ Hg D A B D1 N1) as F1.
  set (dev := fun s : state numR => Re (coef (s_pvs s) 1) - g_omega g).
  assert (HH : 0 <= h * m_coeff M) by (apply Rmult_le_pos; lra). assert (HH2 : 0 <= 2 * h * m_coeff M) by (apply Rmult_le_pos; lra).
  assert (FX : forall (y : list C) (q : Rdefinitions.R), plain_spec g D y -> 0 <= q * m_coeff M -> Re (coef (apply_diffusion (harmonics D) M g q y) 1) - g_omega g = damping g M q 1 * (Re (coef y 1) - g_omega g)).
  { intros y q P Q. pose proof (bg_coef _ _ _ _ _ Hg D A B M q y 1 Q HB P H1) as W. rewrite F1 in W. apply (f_equal fst) in W. destruct (coef (apply_diffusion (harmonics D) M g q y) 1), (coef y 1). cbn in *. lra. }
  assert (FL : forall (y : list C) (b : state numR) q, plain_spec g D y -> plain_state g D b -> plain_spec g D (sadd y (sscale q (sopp (s_pv_flux_spectral (harmonics D) b)))) /\ Re (coef (sadd y (sscale q (sopp (s_pv_flux_spectral (harmonics D) b)))) 1) = Re (coef y 1)).
  { intros y b q P Pb. pose proof (flux_plain _ _ _ _ _ Hg D A B b Pb) as F. pose proof (plain_length _ _ _ F) as LF. pose proof (plain_length _ _ _ P) as LP.
    pose proof (step_coef g y (s_pv_flux_spectral (harmonics D) b) q) as SC. split.
    - apply (plain_lin g D 1 (- q) y (s_pv_flux_spectral (harmonics D) b)); auto. apply (step_len g); [exact LP|now rewrite sopp_length].
    - rewrite SC by assumption. pose proof (flux_mom res rs om nt g Hg D A B b D1 N1 Pb) as Z. destruct (coef (s_pv_flux_spectral (harmonics D) b) 1), (coef y 1). cbn in *. rewrite Z. ring. }
  assert (Q : plain_state g D s /\ plain_state g D new /\ exists ca cb, 0 <= ca <= 1 /\ 0 <= cb <= 1 /\ dev s = ca * dev init /\ dev new = cb * dev init).
  { revert s new E. induction i as [|i IH]; intros s new E.
    - cbn [steps] in E. unfold euler in E. rewrite HE in E. cbn [bind] in E. unfold pv_tendency_spectral in E. rewrite HM in E. cbn [bind] in E. destruct (py_add (s_time init) dt) as [t|x]; [|discriminate]. cbn [bind] in E. injection E as <- <-. rewrite G.
      destruct (FL (s_pvs init) init h (proj2 S0) S0) as [PX CX]. split; [exact S0|]. split; [split; [reflexivity|]; cbn [s_pvs]; now apply (diffused_plain _ _ _ _ _ Hg)|].
      exists 1, (damping g M h 1). split; [lra|]. split; [pose proof (damping_range _ _ _ _ _ Hg M h HH 1); lra|]. split; [ring|]. unfold dev. cbn [s_pvs]. rewrite FX by assumption. now rewrite CX.
    - cbn [steps] in E. destruct (steps (harmonics D) M init dt i) as [[a b]|x] eqn:Es; [|discriminate]. cbn [bind fst snd] in E. destruct (IH a b eq_refl) as [Pa [Pb [ca [cb [Ra [Rb [Ea Eb]]]]]]].
      destruct (clock_times (harmonics D) M init dt tm CK i a b Es) as [T1 T2]. destruct CK as [_ [_ [_ CS]]].
      unfold leapfrog in E. rewrite T1, T2, CS in E. cbn [bind] in E. rewrite HE in E. cbn [bind] in E. unfold pv_tendency_spectral in E. rewrite HM in E. cbn [bind] in E. destruct (py_add (tm (S i)) dt) as [t|x]; [|discriminate]. cbn [bind] in E.
      pose proof Pb as [Gb Qb]. pose proof Pa as [_ Qa]. rewrite Gb in E. destruct (FL (s_pvs a) b (2 * h) Qa Pb) as [PX CX]. set (x := sadd (s_pvs a) (sscale (2 * h) (sopp (s_pv_flux_spectral (harmonics D) b)))) in *.
      pose proof (diffused_plain _ _ _ _ _ Hg D A B M (2 * h) HH2 x PX) as PD. pose proof (FX x (2 * h) PX HH2) as CD. rewrite CX in CD. set (y := apply_diffusion (harmonics D) M g (2 * h) x) in *.
      set (w := damping g M (2 * h) 1) in *. pose proof (damping_range _ _ _ _ _ Hg M (2 * h) HH2 1) as W. fold w in W.
      pose proof (plain_length _ _ _ PD) as LY. pose proof (plain_length _ _ _ Qa) as LA. pose proof (plain_length _ _ _ Qb) as LB.
      set (z := sadd (sscale (1 - 2 * default_nu) (s_pvs b)) (sscale default_nu (sadd (s_pvs a) y))) in *.
      assert (LS : length (sadd (s_pvs a) y) = nspec (g_ntrunc g)) by (rewrite sadd_length; congruence).
      assert (PS : plain_spec g D (sadd (s_pvs a) y)) by (apply (plain_lin g D 1 1 _ _ _ Qa PD LS); intros k Hk; rewrite coef_sadd by congruence; ring).
      assert (CZ : forall k, (k < nspec (g_ntrunc g))%nat -> coef z k = Cplus (Cmult (RtoC (1 - 2 * default_nu)) (coef (s_pvs b) k)) (Cmult (RtoC default_nu) (coef (sadd (s_pvs a) y) k))).
      { intros k Hk. unfold z. rewrite coef_sadd by (rewrite ?sscale_length; congruence). rewrite !coef_sscale by congruence. reflexivity. }
      assert (LZ : length z = nspec (g_ntrunc g)) by (unfold z; rewrite sadd_length; rewrite ?sscale_length; congruence).
      pose proof (plain_lin g D _ _ _ _ _ Qb PS LZ CZ) as PZ.
      injection E as <- <-. split; [split; [reflexivity|exact PZ]|]. split; [split; [reflexivity|exact PD]|].
      exists ((1 - 2 * default_nu) * cb + default_nu * (ca + w * ca)), (w * ca). unfold default_nu.
      assert (WC : 0 <= w * ca <= 1) by nra. split; [lra|]. split; [exact WC|].
      unfold dev in *. cbn [s_pvs]. split.
      + specialize (CZ 1%nat H1). rewrite coef_sadd in CZ by congruence. unfold default_nu in CZ. rewrite CZ.
        destruct (coef (s_pvs b) 1), (coef (s_pvs a) 1), (coef y 1), (coef (s_pvs init) 1). cbn in *. nra.
      + rewrite CD, Ea. ring. }
  destruct Q as [Ps [_ [ca [cb [Ra [_ [Ea _]]]]]]]. exists ca. split; [exact Ra|].
  rewrite (momentum_value _ _ _ _ _ Hg D A B s D1 N1 Ps), (momentum_value _ _ _ _ _ Hg D A B init D1 N1 S0). unfold dev in Ea. rewrite Ea. ring.
Qed.
Print Assumptions C137_momentum.

(** Example: one step on the coarsest grid with diffusion that halves the waves of degree 1.
    The atmosphere at rest on a planet that turns once in 2 pi seconds gets the angular
    momentum -1/3; with the planetary vorticity as background it stays at rest. *)
Example C137_example : let g := d1_grid 1 1 in mk_grid 90 1 1 (Some 1%Z) = Ok g /\ (2 * 1 < g_nlat g)%nat /\ (2 * 1 < g_nlon g)%nat /\ (1 <= g_ntrunc g)%nat
  /\ let M := mkModel (K := numR) None 1 (1 / 2) None in let M' := mkModel (K := numR) None 1 (1 / 2) (Some (g_fcor2 g)) in
  exists s, motionless (harmonics 1) g (@VNum numR 0) = Ok s /\ length (s_pvs s) = nspec (g_ntrunc g) /\ resolved (sph (harmonics 1) g) (g_ntrunc g) (s_pvs s)
  /\ momentum (harmonics 1) (mkState g (s_time s) (apply_diffusion (harmonics 1) M g 1 (s_pvs s))) = - / 3
  /\ 0 < mean_energy (harmonics 1) (mkState g (s_time s) (apply_diffusion (harmonics 1) M g 1 (s_pvs s)))
  /\ momentum (harmonics 1) (mkState g (s_time s) (apply_diffusion (harmonics 1) M' g 1 (s_pvs s))) = 0
  /\ exists e, euler (harmonics 1) M' s (@VNum numR 1) = Ok e.
Proof.
  intros g. pose proof (d1_grid_ok 1 1 ltac:(lra)) as Hg. fold g in Hg. assert (A : (2 * 1 < g_nlat g)%nat) by (cbn; lia). assert (B : (2 * 1 < g_nlon g)%nat) by (cbn; lia). assert (N1 : (1 <= g_ntrunc g)%nat) by (cbn; lia).
  split; [exact Hg|]. split; [exact A|]. split; [exact B|]. split; [exact N1|]. intros M M'.
  pose proof (plain_analysis _ _ _ _ _ Hg 1 A B (g_fcor2 g)) as P. pose proof (plain_length _ _ _ P) as LP.
  assert (RP : resolved (sph (harmonics 1) g) (g_ntrunc g) (to_spectral (harmonics 1) g (g_fcor2 g))). { apply (C133_resolved _ _ _ _ _ Hg 1 A B _ LP). intros k Hk. split; intros W; now apply P. }
  set (s := mkState (K := numR) g (@VNum numR 0) (to_spectral (harmonics 1) g (g_fcor2 g))). assert (HS : motionless (harmonics 1) g (@VNum numR 0) = Ok s) by reflexivity.
  assert (HC : 0 <= 1 * m_coeff M) by (cbn; lra). assert (HC' : 0 <= 1 * m_coeff M') by (cbn; lra). assert (HP : 0 < 1 * m_coeff M) by (cbn; lra). assert (HO : 0 < g_omega g) by (cbn; lra).
  destruct (C137_rest_refuted numR _ _ _ _ _ Hg 1 ltac:(lia) N1 A B M _ s 1 eq_refl HP HO HS) as (_ & M1 & E2 & _).
  pose proof (C137_absolute numR _ _ _ _ _ Hg 1 ltac:(lia) N1 A B M s 1 eq_refl HC eq_refl LP RP) as AB. cbv zeta in AB. rewrite M1 in AB.
  destruct (C137_energy numR _ _ _ _ _ Hg 1 A B M' s 1 eq_refl HC' eq_refl LP RP) as [_ MB]. specialize (MB ltac:(lia) N1). rewrite M1 in MB.
  exists s. split; [exact HS|]. split; [exact LP|]. split; [exact RP|]. split; [|split; [exact E2|split; [rewrite MB; unfold Rdiv; ring|]]].
  - set (m := momentum _ _) in *. change (g_omega g) with 1 in AB. change (g_rsphere g) with 1 in AB. cbn [M m_coeff m_order] in AB. lra.
  - eexists. reflexivity.
Qed.
