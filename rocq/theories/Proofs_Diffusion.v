(** Diffusion, energy, enstrophy and angular momentum: proofs. *)
From Coq Require Export String.
From Verif Require Import Base Model_Grid Model_Time Model_Spectral Model_State Model_Run.
From Verif Require Import Spec_Grid Spec_Spectral Spec_State Spec_Instance Spec_Run Spec_Symmetry Spec_Relax Spec_Waves Spec_Harmonics Spec_Conserve.
From Verif Require Import Proofs_Base Proofs_Trig Proofs_Grid Proofs_Spectral Proofs_Instance Proofs_State Proofs_Run Proofs_Step Proofs_Relax Proofs_WaveRec Proofs_Waves Proofs_HarmSum Proofs_Harmonics Proofs_HarmProd Proofs_HarmCons Proofs_Conserve.
From Verif Require Import Props_Symmetry Props_Waves Props_Harmonics Props_Conserve.
From Coquelicot Require Import Coquelicot.
From Coq Require Import List Lia Lra.
Import ListNotations.
Open Scope R_scope.

(** a sum that grows in one term *)
Lemma Rsum_tab_lt n f h k0 : (forall k, (k < n)%nat -> f k <= h k) -> (k0 < n)%nat -> f k0 < h k0 -> Rsum (tab n f) < Rsum (tab n h).
Proof.
  intros H Hk L. set (e := fun k => if Nat.eqb k k0 then h k0 - f k0 else 0).
  assert (E : Rsum (tab n (fun k => f k + e k)) <= Rsum (tab n h)).
  { apply Rsum_tab_le. intros k K. specialize (H k K). unfold e. destruct (Nat.eqb_spec k k0) as [->|]; lra. }
  rewrite Rsum_tab_plus in E. assert (P : Rsum (tab n e) = e k0).
  { apply Rsum_tab_one; [exact Hk|]. intros j _ J. unfold e. apply Nat.eqb_neq in J. now rewrite J. }
  assert (Q : e k0 = h k0 - f k0) by (unfold e; now rewrite Nat.eqb_refl). lra.
Qed.

Section Damping.
Context {K : numtype} (res rs om : R) (nt0 : option Z) (g : grid).
Hypothesis Hg : mk_grid res rs om nt0 = Ok g.
Variable D : nat.
Hypothesis HDN : (2 * D < g_nlat g)%nat.
Hypothesis HDM : (2 * D < g_nlon g)%nat.
Notation T := (harmonics D).
Notation nt := (g_ntrunc g).
Notation L := (nspec (g_ntrunc g)).
Notation r := (g_rsphere g).
Context (M : bmodel K) (h : R).
Hypothesis HC : 0 <= h * m_coeff M.

(** the factor of a coefficient *)
Definition damping (k : nat) : R := / (1 + h * m_coeff M * eigenvalue r (degree nt k) ^ m_order M).
Lemma damping_range k : 0 < damping k <= 1.
Proof.
  assert (E : 0 <= eigenvalue r (degree nt k) ^ m_order M) by (apply pow_le, eigenvalue_nonneg, (Hr _ _ _ _ _ Hg)).
  assert (P : 0 <= h * m_coeff M * eigenvalue r (degree nt k) ^ m_order M) by now apply Rmult_le_pos.
  unfold damping. split; [apply Rinv_0_lt_compat; lra|]. rewrite <- Rinv_1. apply Rinv_le_contravar; lra.
Qed.
Lemma damping_strict k : 0 < h * m_coeff M -> (0 < degree nt k)%nat \/ m_order M = 0%nat -> damping k < 1.
Proof.
  intros P O. assert (E : 0 < eigenvalue r (degree nt k) ^ m_order M).
  { destruct O as [O| ->]; [apply pow_lt, (eig_pos r (Hr _ _ _ _ _ Hg)); lia|cbn; lra]. }
  assert (Q : 0 < h * m_coeff M * eigenvalue r (degree nt k) ^ m_order M) by now apply Rmult_lt_0_compat.
  unfold damping. rewrite <- Rinv_1. apply Rinv_lt_contravar; lra.
Qed.
Lemma damped_coef x k : length x = L -> (k < L)%nat -> coef (solve_diffusion_spectral g x (m_coeff M) h (m_order M)) k = Cmult (RtoC (damping k)) (coef x k).
Proof.
  intros X Hk. pose proof (Hr _ _ _ _ _ Hg) as R0. rewrite diffusion_coef by (assumption || lra). unfold damping. pose proof (damping_range k) as [W _]. unfold damping in W.
  rewrite RtoC_inv; [unfold Cdiv; apply Cmult_comm|]. intros E. rewrite E, Rinv_0 in W. lra.
Qed.
Lemma damped_plain x : plain_spec g D x -> plain_spec g D (solve_diffusion_spectral g x (m_coeff M) h (m_order M)).
Proof.
  intros [[X Z] W]. split; [split; [now apply diffusion_length|]|].
  - intros k Hk O. rewrite damped_coef, (Z k Hk O), Cmult_0_r by assumption. reflexivity.
  - intros k Hk O. rewrite damped_coef by assumption. specialize (W k Hk O). destruct (coef x k). cbn in *. rewrite W. ring.
Qed.
Lemma diffused_plain x : plain_spec g D x -> plain_spec g D (apply_diffusion T M g h x).
Proof.
  intros P. unfold apply_diffusion. destruct (m_bg M) as [bg|]; [|now apply damped_plain]. cbv zeta. pose proof (plain_analysis _ _ _ _ _ Hg D HDN HDM bg) as B. set (b := to_spectral T g bg) in *.
  pose proof (plain_length _ _ _ P) as LP. pose proof (plain_length _ _ _ B) as LB.
  assert (S : plain_spec g D (ssub x b)).
  { apply (plain_lin g D 1 (-1) x b); auto; [rewrite ssub_length; congruence|]. intros k Hk. rewrite coef_ssub by congruence. rewrite Proofs_Harmonics.RtoC_m1. ring. }
  pose proof (damped_plain _ S) as Q. pose proof (plain_length _ _ _ Q) as LQ.
  apply (plain_lin g D 1 1 _ b _ Q B); [rewrite sadd_length; congruence|]. intros k Hk. rewrite coef_sadd by congruence. ring.
Qed.
(** quadratic quantities *)
Lemma cdot_self c : 0 <= cdot c c.
Proof. unfold cdot. nra. Qed.
Lemma cdot_scaled w c : cdot (Cmult (RtoC w) c) (Cmult (RtoC w) c) = w ^ 2 * cdot c c.
Proof. unfold cdot. destruct c. cbn. ring. Qed.
Lemma cdot_zero c : cdot c c = 0 -> c = RtoC 0.
Proof. unfold cdot. destruct c as [a b]. cbn. intros E. assert (a = 0) by nra. assert (b = 0) by nra. subst. reflexivity. Qed.
Lemma inner_damped x y : (forall k, (k < L)%nat -> coef y k = Cmult (RtoC (damping k)) (coef x k)) -> inner nt y y <= inner nt x x.
Proof.
  intros H. unfold inner. apply Rsum_tab_le. intros k Hk. rewrite H, cdot_scaled by exact Hk. pose proof (order_degree nt k Hk) as [O _]. pose proof (mean_square_pos _ _ O) as P.
  pose proof (damping_range k) as W. pose proof (cdot_self (coef x k)) as C0. apply Rmult_le_compat_l; [lra|]. assert (damping k ^ 2 <= 1) by nra. nra.
Qed.
Lemma inner_damped_strict x y k : (forall k, (k < L)%nat -> coef y k = Cmult (RtoC (damping k)) (coef x k)) -> (k < L)%nat -> damping k < 1 -> coef x k <> RtoC 0 -> inner nt y y < inner nt x x.
Proof.
  intros H Hk S N0. unfold inner. apply (Rsum_tab_lt _ _ _ k).
  - intros l Hl. rewrite H, cdot_scaled by exact Hl. pose proof (order_degree nt l Hl) as [O _]. pose proof (mean_square_pos _ _ O) as P.
    pose proof (damping_range l) as W. pose proof (cdot_self (coef x l)) as C0. apply Rmult_le_compat_l; [lra|]. assert (damping l ^ 2 <= 1) by nra. nra.
  - exact Hk.
  - rewrite H, cdot_scaled by exact Hk. pose proof (order_degree nt k Hk) as [O _]. pose proof (mean_square_pos _ _ O) as P. pose proof (damping_range k) as W.
    assert (C0 : 0 < cdot (coef x k) (coef x k)). { destruct (cdot_self (coef x k)) as [C0|C0]; [exact C0|]. exfalso. apply N0, cdot_zero. now symmetry. }
    apply Rmult_lt_compat_l; [lra|]. assert (damping k ^ 2 < 1) by nra. nra.
Qed.
Lemma een_damped x y : plain_spec g D x -> plain_spec g D y -> (forall k, (k < L)%nat -> coef y k = Cmult (RtoC (damping k)) (coef x k)) -> een g y y <= een g x x.
Proof.
  intros X Y H. rewrite (een_terms g D y y Y), (een_terms g D x x X). apply Rsum_tab_le. intros k Hk. rewrite H, cdot_scaled by exact Hk.
  destruct (Nat.eqb_spec (degree nt k) 0) as [|E]; [lra|]. pose proof (eig_pos r (Hr _ _ _ _ _ Hg) (degree nt k) ltac:(lia)) as P. apply Rinv_0_lt_compat in P.
  pose proof (order_degree nt k Hk) as [O _]. pose proof (mean_square_pos _ _ O) as Q. pose proof (damping_range k) as W. pose proof (cdot_self (coef x k)) as C0.
  apply Rmult_le_compat_l; [lra|]. apply Rmult_le_compat_l; [lra|]. assert (damping k ^ 2 <= 1) by nra. nra.
Qed.
End Damping.

Lemma mean_square_01 : mean_square 0 1 = 4 / 3.
Proof.
  unfold mean_square. cbn [Nat.eqb]. replace (RInt _ (-1) 1) with (8 / 3); [field|]. symmetry. apply is_RInt_unique.
  apply (is_RInt_ext (fun z => 4 * z ^ 2)). { intros z _. rewrite rodrigues_10. cbn. ring. }
  replace (8 / 3) with (minus (4 / 3 * 1 ^ 3) (4 / 3 * (-1) ^ 3)) by (unfold minus, plus, opp; cbn; field).
  apply (is_RInt_derive (fun z => 4 / 3 * z ^ 3)); intros z _.
  - auto_derive; [exact I|]. cbn. field.
  - apply (ex_derive_continuous (fun z => 4 * z ^ 2)). auto_derive. exact I.
Qed.

Section Quantities.
Context {K : numtype} (res rs om : R) (nt0 : option Z) (g : grid).
Hypothesis Hg : mk_grid res rs om nt0 = Ok g.
Variable D : nat.
Hypothesis HDN : (2 * D < g_nlat g)%nat.
Hypothesis HDM : (2 * D < g_nlon g)%nat.
Notation T := (harmonics D).
Notation nt := (g_ntrunc g).
Notation L := (nspec (g_ntrunc g)).
Notation r := (g_rsphere g).
Context (M : bmodel K).

Lemma bg_coef h x k : 0 <= h * m_coeff M -> m_bg M = Some (g_fcor2 g) -> plain_spec g D x -> (k < L)%nat ->
  Cminus (coef (apply_diffusion T M g h x) k) (coef (fcor2_spectral T g) k) = Cmult (RtoC (damping g M h k)) (Cminus (coef x k) (coef (fcor2_spectral T g) k)).
Proof.
  intros HC HB P Hk. unfold apply_diffusion. rewrite HB. cbv zeta. fold (fcor2_spectral T g). pose proof (plain_length _ _ _ (plain_analysis _ _ _ _ _ Hg D HDN HDM (g_fcor2 g))) as LF. fold (fcor2_spectral T g) in LF.
  pose proof (plain_length _ _ _ P) as LP. assert (LS : length (ssub x (fcor2_spectral T g)) = L) by (rewrite ssub_length; congruence).
  pose proof (diffusion_length g (ssub x (fcor2_spectral T g)) (m_coeff M) h (m_order M) LS) as LD.
  rewrite coef_sadd by congruence. rewrite (damped_coef _ _ _ _ _ Hg M h HC) by assumption. rewrite coef_ssub by congruence. ring.
Qed.
Lemma fcor2_coef_1 : (1 <= D)%nat -> (1 <= nt)%nat -> coef (fcor2_spectral T g) 1 = RtoC (g_omega g).
Proof.
  intros A B. destruct (C133_transforms _ _ _ _ _ Hg D HDN HDM) as [HE _]. rewrite (fcor2_rotating T g HE (fcor2_sine _ _ _ _ _ Hg)). unfold to_spectral, sph, harmonics. cbn [sh_grdtospec].
  assert (H1 : (1 < L)%nat) by (destruct nt; [lia|]; rewrite nspec_S; lia).
  rewrite (analysis_sine (g_nlat g) (g_nlon g) D nt 0 (HN _ _ _ _ _ Hg D HDN HDM) ltac:(lia) HDN HDM ltac:(lia) ltac:(lia) B A). rewrite coef_sscale by (rewrite sine_length; exact H1). rewrite coef_sine by exact H1.
  cbn [Nat.eqb]. rewrite <- RtoC_mult. f_equal. field.
Qed.
Lemma degree_1 : (1 <= nt)%nat -> degree nt 1 = 1%nat.
Proof. intros B. destruct nt as [|t]; [lia|reflexivity]. Qed.
Lemma damping_1 h : (1 <= nt)%nat -> damping g M h 1 = / (1 + h * m_coeff M * (2 / r ^ 2) ^ m_order M).
Proof.
  intros B. unfold damping. rewrite degree_1 by exact B. unfold eigenvalue. cbn [INR]. pose proof (Hr _ _ _ _ _ Hg) as R0. replace (1 * (1 + 1) / (r * r)) with (2 / r ^ 2) by (field; lra). reflexivity.
Qed.
(** momentum and the second coefficient *)
Lemma momentum_value (s : state K) : (1 <= D)%nat -> (1 <= nt)%nat -> plain_state g D s -> momentum T s = 2 / 3 * r ^ 2 * (Re (coef (s_pvs s) 1) - g_omega g).
Proof.
  intros A B S. assert (H1 : (1 < L)%nat) by (destruct nt; [lia|]; rewrite nspec_S; lia).
  rewrite (momentum_eq _ _ _ _ _ Hg D HDN HDM s A B S), mean_square_01, (vo_coef _ _ _ _ _ Hg D HDN HDM s 1 S H1), fcor2_coef_1 by assumption.
  destruct (coef (s_pvs s) 1). cbn. field.
Qed.

(** one step with diffusion *)
Hypothesis HM : m_rhs M = None.
Notation M0 := (mkModel (K := K) (m_rhs M) (m_order M) 0 (m_bg M)).
Lemma euler_split s dt h e : to_seconds dt = Ok h -> plain_state g D s -> euler T M s dt = Ok e ->
  exists e0, euler T M0 s dt = Ok e0 /\ plain_state g D e0 /\ s_grid e = g /\ s_pvs e = apply_diffusion T M g h (s_pvs e0).
Proof.
  intros Hh S E. destruct (C133_transforms _ _ _ _ _ Hg D HDN HDM) as [HE _]. pose proof S as [G P]. pose proof (plain_length _ _ _ P) as LP.
  pose proof (flux_plain _ _ _ _ _ Hg D HDN HDM s S) as F. pose proof (plain_length _ _ _ F) as LF.
  unfold euler in *. rewrite Hh in *. cbn [bind] in *. unfold pv_tendency_spectral in *. cbn [m_rhs] in *. rewrite HM in *. cbn [bind] in *. destruct (py_add (s_time s) dt) as [t|x]; [|discriminate]. cbn [bind] in *. injection E as <-.
  set (x := sadd (s_pvs s) (sscale h (sopp (s_pv_flux_spectral T s)))). assert (LX : length x = L) by (unfold x; apply (step_len g); [exact LP|now rewrite sopp_length]).
  eexists. split; [reflexivity|]. rewrite G. assert (N0 : apply_diffusion T M0 g h x = x) by (apply (no_diffusion res rs om nt0 T g Hg HE); auto). fold x. cbn [s_grid s_pvs].
  unfold apply_diffusion in N0 |- *. cbn [m_bg m_coeff m_order m_rhs] in N0 |- *. 
  split; [|split; [reflexivity|]].
  - split; [reflexivity|]. cbn [s_pvs]. rewrite N0. apply (plain_lin g D 1 (- h) _ _ _ P F LX). intros k Hk. unfold x. apply (step_coef g); [exact LP|exact LF|exact Hk].
  - f_equal. now rewrite N0.
Qed.
End Quantities.
