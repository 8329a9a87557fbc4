(** C146: relaxation and the angular momentum of the flow. *)
From Coq Require Export String.
From Verif Require Import Base Model_Grid Model_Time Model_Spectral Model_State Model_Run Model_RHS.
From Verif Require Import Spec_Grid Spec_Spectral Spec_State Spec_Instance Spec_Run Spec_RHS Spec_Symmetry Spec_Relax Spec_Waves Spec_Harmonics Spec_Conserve Spec_PVSource Spec_Torque.
From Verif Require Import Proofs_Base Proofs_Trig Proofs_Grid Proofs_Spectral Proofs_Instance Proofs_State Proofs_Run Proofs_Times Proofs_Step Proofs_Relax Proofs_Waves Proofs_Orog Proofs_HarmQuad Proofs_HarmSum Proofs_Harmonics Proofs_HarmProd Proofs_HarmCons Proofs_Conserve Proofs_PVSource Proofs_Torque.
From Verif Require Import Props_RHS Props_Symmetry Props_Relax Props_Harmonics Props_Conserve Props_PVSource Props_Torque.
From Coquelicot Require Import Coquelicot.
From Coq Require Import List Lia Lra.
Open Scope R_scope.

Section Relaxing.
Context (res rs om : R) (nt0 : option Z) (g : grid).
Hypothesis Hg : mk_grid res rs om nt0 = Ok g.
Variable D : nat.
Hypothesis HDN : (2 * D < g_nlat g)%nat.
Hypothesis HDM : (2 * D < g_nlon g)%nat.
Hypothesis HD1 : (1 <= D)%nat.
Hypothesis HN1 : (1 <= g_ntrunc g)%nat.
Notation T := (harmonics D).
Notation L := (nspec (g_ntrunc g)).
Let HE : exact_on T g := HE res rs om nt0 g Hg D HDN HDM.
Notation P := (plain_spec g D).
Let H1 : (1 < L)%nat := one_lt res rs om nt0 g Hg D HDN HDM HD1 HN1.

Lemma P_add x y : P x -> P y -> P (sadd x y).
Proof. intros X Y. pose proof (plain_length _ _ _ X). pose proof (plain_length _ _ _ Y). apply (plain_lin g D 1 1 _ _ _ X Y); [rewrite sadd_length; congruence|]. intros k Hk. rewrite coef_sadd by congruence. ring. Qed.
Lemma P_scale c x : P x -> P (sscale c x).
Proof. intros X. pose proof (plain_length _ _ _ X). apply (plain_lin g D c 0 _ _ _ X X); [rewrite sscale_length; congruence|]. intros k Hk. rewrite coef_sscale by congruence. ring. Qed.
Lemma P_res x : P x -> to_spectral T g (to_grid T g x) = x.
Proof. intros X. apply (C133_resolved _ _ _ _ _ Hg D HDN HDM x (plain_length _ _ _ X)). intros l Hl. split; intros V; now apply X. Qed.
Lemma axis_real x : P x -> snd (coef x 1) = 0.
Proof. intros [_ Z]. apply Z; [exact H1|]. clear -HN1. destruct (g_ntrunc g); [lia|reflexivity]. Qed.
Lemma axis_flux (s : state numR) : s_grid s = g -> P (s_pvs s) -> P (s_pv_flux_spectral T s) /\ coef (s_pv_flux_spectral T s) 1 = RtoC 0.
Proof.
  intros G X. assert (S : plain_state g D s) by now split. pose proof (flux_plain res rs om nt0 g Hg D HDN HDM s S) as F. split; [exact F|].
  pose proof (flux_mom res rs om nt0 g Hg D HDN HDM s HD1 HN1 S) as Z. pose proof (axis_real _ F) as I. destruct (coef (s_pv_flux_spectral T s) 1) as [a b]. cbn in Z, I. subst. reflexivity.
Qed.
Lemma axis_tends (M : bmodel numR) rate ref s : shaped (g_nlat g) (g_nlon g) ref -> m_rhs M = Some (call T (PRelax rate (FMat ref))) -> Proofs_Relax.good g P s -> Proofs_Relax.tends T g M rate ref 1 P s.
Proof.
  intros HS HM. apply (relax_tendency T g HE M rate ref 1 H1 P); auto using P_add, P_scale, P_res, axis_flux.
  - intros x X. now apply (plain_length g D).
  - apply (plain_analysis res rs om nt0 g Hg D HDN HDM).
Qed.
Lemma axis_distance (s b : state numR) ref : plain_state g D s -> plain_state g D b -> s_pvs b = to_spectral T g ref ->
  Rabs (momentum T s - momentum T b) = g_rsphere g ^ 2 * (mean_square 0 1 / 2) * distance_to T ref 1 s.
Proof.
  intros S B E. rewrite (momentum_pv res rs om nt0 g Hg D HDN HDM HD1 HN1 b s (Re (coef (s_pvs s) 1) - Re (coef (s_pvs b) 1)) B S) by ring.
  unfold distance_to. rewrite (proj1 S), <- E. pose proof (axis_real _ (proj2 S)) as I. pose proof (axis_real _ (proj2 B)) as J.
  destruct (coef (s_pvs s) 1) as [a i], (coef (s_pvs b) 1) as [c j]. cbn [snd Re fst] in *. subst i j.
  replace (Cminus (a, 0) (c, 0)) with (RtoC (a - c)) by (unfold RtoC, Cminus, Cplus, Copp; cbn; f_equal; ring). rewrite Cmod_R.
  replace (momentum T b + g_rsphere g ^ 2 * (mean_square 0 1 / 2 * (a - c)) - momentum T b) with (g_rsphere g ^ 2 * (mean_square 0 1 / 2) * (a - c)) by ring.
  rewrite Rabs_mult. f_equal. apply Rabs_right, Rle_ge. pose proof (mean_square_pos 0 1 ltac:(lia)). pose proof (pow2_ge_0 (g_rsphere g)). nra.
Qed.
End Relaxing.

(** The angular momentum of any flow, however it is advected, relaxes to that of the flow
    with the reference PV if the rate times the step is below 1/3, with or without diffusion
    towards the reference *)
Theorem C146_momentum : forall res rs om nt g, mk_grid res rs om nt = Ok g -> (1 <= g_ntrunc g)%nat -> forall D, (1 <= D)%nat -> (2 * D < g_nlat g)%nat -> (2 * D < g_nlon g)%nat ->
  forall (M : bmodel numR) init dt h rate ref (b : state numR), timed init dt h -> 0 < h ->
  s_grid init = g -> length (s_pvs init) = nspec (g_ntrunc g) -> resolved (sph (harmonics D) g) (g_ntrunc g) (s_pvs init) ->
  shaped (g_nlat g) (g_nlon g) ref -> s_grid b = g -> s_pvs b = to_spectral (harmonics D) g ref ->
  m_rhs M = Some (call (harmonics D) (PRelax rate (FMat ref))) -> m_coeff M = 0 \/ 0 <= m_coeff M /\ m_bg M = Some ref ->
  0 < rate * h < 1 / 3 -> forall eps, 0 < eps -> exists n0, forall n, (n0 <= n)%nat ->
  exists s, trajectory (harmonics D) M init dt n s /\ Rabs (momentum (harmonics D) s - momentum (harmonics D) b) <= eps.
Proof.
  intros res rs om nt g Hg N1 D D1 A B M init dt h rate ref b HT Hh G X R HS Gb Eb HM HD [R0 R1] eps He.
  pose proof (plain_iff _ _ _ _ _ Hg D A B init G X R) as S. pose proof (HE res rs om nt g Hg D A B) as HE. destruct (timed_clock _ _ _ HT) as [tm [HC Hs]]. pose proof (one_lt res rs om nt g Hg D A B D1 N1) as H1.
  destruct (diffusion_factor res rs om nt (harmonics D) g Hg HE M h ref Hh 1 H1 HD) as [c [C1 [_ HF]]].
  assert (PD : forall d x, 0 <= d -> plain_spec g D x -> plain_spec g D (apply_diffusion (harmonics D) M g d x)) by (intros d x Hd Y; now apply (diffused_any res rs om nt g Hg D A B)).
  assert (HX : forall x, plain_spec g D x -> (coef (apply_diffusion (harmonics D) M g (2 * h) x) 1 - coef (to_spectral (harmonics D) g ref) 1 = RtoC c * (coef x 1 - coef (to_spectral (harmonics D) g ref) 1))%C) by (intros x Y; apply HF, (plain_length g D), Y).
  assert (HA : approaches (harmonics D) M init dt ref 1).
  { apply (relax_approaches (harmonics D) g M init dt tm h rate ref 1 HC Hs Hh H1 (plain_spec g D)) with (c := c); auto using P_add, P_scale.
    - intros x Y. now apply (plain_length g D).
    - intros s Gs. now apply (axis_tends res rs om nt g Hg D A B D1 N1). }
  pose proof (mean_square_pos 0 1 ltac:(lia)) as PM. assert (PR : 0 < g_rsphere g ^ 2) by (apply pow_lt, (Hr res rs om nt g Hg)). set (w := g_rsphere g ^ 2 * (mean_square 0 1 / 2)). assert (W : 0 < w) by (apply Rmult_lt_0_compat; lra).
  destruct (HA (eps / w) ltac:(now apply Rdiv_lt_0_compat)) as [n0 Hn]. exists n0. intros n Ln. destruct (Hn n Ln) as [s [Hs' Ds]]. exists s. split; [exact Hs'|].
  assert (PS : plain_state g D s).
  { destruct (pair_ok (harmonics D) g M init dt tm h rate ref 1 HC Hs Hh H1 (plain_spec g D)) with (c := c) (n := n) as [E [Gs _]]; auto using P_add, P_scale.
    - intros x Y. now apply (plain_length g D).
    - intros q Gs. now apply (axis_tends res rs om nt g Hg D A B D1 N1).
    - destruct Hs' as [new E']. rewrite E in E'. apply Ok_inj in E'. rewrite E' in Gs. exact Gs. }
  assert (PB : plain_state g D b) by (split; [exact Gb|]; rewrite Eb; apply (plain_analysis res rs om nt g Hg D A B)).
  rewrite (axis_distance res rs om nt g Hg D A B D1 N1 s b ref PS PB Eb). fold w. replace eps with (w * (eps / w)) by (field; lra). apply Rmult_le_compat_l; lra.
Qed.
Print Assumptions C146_momentum.

(** ... and stays away from it if the rate times the step is 1/3 or more (and not 3/2),
    without diffusion *)
Theorem C146_threshold : forall res rs om nt g, mk_grid res rs om nt = Ok g -> (1 <= g_ntrunc g)%nat -> forall D, (1 <= D)%nat -> (2 * D < g_nlat g)%nat -> (2 * D < g_nlon g)%nat ->
  forall (M : bmodel numR) init dt h rate ref (b : state numR), timed init dt h -> 0 < h ->
  s_grid init = g -> length (s_pvs init) = nspec (g_ntrunc g) -> resolved (sph (harmonics D) g) (g_ntrunc g) (s_pvs init) ->
  shaped (g_nlat g) (g_nlon g) ref -> s_grid b = g -> s_pvs b = to_spectral (harmonics D) g ref ->
  m_rhs M = Some (call (harmonics D) (PRelax rate (FMat ref))) -> m_coeff M = 0 ->
  1 / 3 <= rate * h -> rate * h <> 3 / 2 -> momentum (harmonics D) init <> momentum (harmonics D) b ->
  exists eps n0, 0 < eps /\ forall n, (n0 <= n)%nat ->
  exists s, trajectory (harmonics D) M init dt n s /\ eps <= Rabs (momentum (harmonics D) s - momentum (harmonics D) b).
Proof.
  intros res rs om nt g Hg N1 D D1 A B M init dt h rate ref b HT Hh G X R HS Gb Eb HM HD R0 R1 V.
  pose proof (plain_iff _ _ _ _ _ Hg D A B init G X R) as S. pose proof (HE res rs om nt g Hg D A B) as HE. destruct (timed_clock _ _ _ HT) as [tm [HC Hs]]. pose proof (one_lt res rs om nt g Hg D A B D1 N1) as H1.
  assert (NO : forall d x, plain_spec g D x -> apply_diffusion (harmonics D) M g d x = x) by (intros d x Y; apply (no_diffusion res rs om nt (harmonics D) g Hg HE M d x HD), (plain_length g D), Y).
  assert (PD : forall d x, 0 <= d -> plain_spec g D x -> plain_spec g D (apply_diffusion (harmonics D) M g d x)) by (intros d x Hd Y; rewrite NO; assumption).
  assert (HX : forall x, plain_spec g D x -> (coef (apply_diffusion (harmonics D) M g (2 * h) x) 1 - coef (to_spectral (harmonics D) g ref) 1 = RtoC 1 * (coef x 1 - coef (to_spectral (harmonics D) g ref) 1))%C) by (intros x Y; rewrite NO by exact Y; ring).
  assert (PB : plain_state g D b) by (split; [exact Gb|]; rewrite Eb; apply (plain_analysis res rs om nt g Hg D A B)).
  pose proof (mean_square_pos 0 1 ltac:(lia)) as PM. assert (PR : 0 < g_rsphere g ^ 2) by (apply pow_lt, (Hr res rs om nt g Hg)). set (w := g_rsphere g ^ 2 * (mean_square 0 1 / 2)). assert (W : 0 < w) by (apply Rmult_lt_0_compat; lra).
  assert (HA : stays_away (harmonics D) M init dt ref 1).
  { apply (relax_away (harmonics D) g M init dt tm h rate ref 1 HC Hs Hh H1 (plain_spec g D)) with (c := 1); auto using P_add, P_scale.
    - intros x Y. now apply (plain_length g D).
    - intros s Gs. now apply (axis_tends res rs om nt g Hg D A B D1 N1).
    - intros E. apply V. pose proof (axis_distance res rs om nt g Hg D A B D1 N1 init b ref S PB Eb) as Q. unfold distance_to in Q. rewrite G, E in Q. replace (coef (to_spectral (harmonics D) g ref) 1 - coef (to_spectral (harmonics D) g ref) 1)%C with (RtoC 0) in Q by ring.
      rewrite Cmod_0, Rmult_0_r in Q. apply Rminus_diag_uniq. destruct (Req_dec (momentum (harmonics D) init - momentum (harmonics D) b) 0) as [Z|Z]; [exact Z|]. apply Rabs_no_R0 in Z. contradiction. }
  destruct HA as [eps [n0 [He Hn]]]. exists (w * eps), n0. split; [now apply Rmult_lt_0_compat|]. intros n Ln. destruct (Hn n Ln) as [s [Hs' Ds]]. exists s. split; [exact Hs'|].
  assert (PS : plain_state g D s).
  { destruct (pair_ok (harmonics D) g M init dt tm h rate ref 1 HC Hs Hh H1 (plain_spec g D)) with (c := 1) (n := n) as [E [Gs _]]; auto using P_add, P_scale.
    - intros x Y. now apply (plain_length g D).
    - intros q Gs. now apply (axis_tends res rs om nt g Hg D A B D1 N1).
    - destruct Hs' as [new E']. rewrite E in E'. apply Ok_inj in E'. rewrite E' in Gs. exact Gs. }
  rewrite (axis_distance res rs om nt g Hg D A B D1 N1 s b ref PS PB Eb). fold w. apply Rmult_le_compat_l; lra.
Qed.
Print Assumptions C146_threshold.

(** ... where 3/2 is the one exception: the filter removes what grows *)
Theorem C146_exception : forall res rs om nt g, mk_grid res rs om nt = Ok g -> (1 <= g_ntrunc g)%nat -> forall D, (1 <= D)%nat -> (2 * D < g_nlat g)%nat -> (2 * D < g_nlon g)%nat ->
  forall (M : bmodel numR) init dt h rate ref (b : state numR), timed init dt h -> 0 < h ->
  s_grid init = g -> length (s_pvs init) = nspec (g_ntrunc g) -> resolved (sph (harmonics D) g) (g_ntrunc g) (s_pvs init) ->
  shaped (g_nlat g) (g_nlon g) ref -> s_grid b = g -> s_pvs b = to_spectral (harmonics D) g ref ->
  m_rhs M = Some (call (harmonics D) (PRelax rate (FMat ref))) -> m_coeff M = 0 ->
  rate * h = 3 / 2 -> forall eps, 0 < eps -> exists n0, forall n, (n0 <= n)%nat ->
  exists s, trajectory (harmonics D) M init dt n s /\ Rabs (momentum (harmonics D) s - momentum (harmonics D) b) <= eps.
Proof.
  intros res rs om nt g Hg N1 D D1 A B M init dt h rate ref b HT Hh G X R HS Gb Eb HM HD0 R1 eps He. pose proof (or_introl HD0 : m_coeff M = 0 \/ 0 <= m_coeff M /\ m_bg M = Some ref) as HD.
  pose proof (plain_iff _ _ _ _ _ Hg D A B init G X R) as S. pose proof (HE res rs om nt g Hg D A B) as HE. destruct (timed_clock _ _ _ HT) as [tm [HC Hs]]. pose proof (one_lt res rs om nt g Hg D A B D1 N1) as H1.
  destruct (diffusion_factor res rs om nt (harmonics D) g Hg HE M h ref Hh 1 H1 HD) as [c [C1 [C2 HF]]].
  assert (PD : forall d x, 0 <= d -> plain_spec g D x -> plain_spec g D (apply_diffusion (harmonics D) M g d x)) by (intros d x Hd Y; now apply (diffused_any res rs om nt g Hg D A B)).
  assert (HX : forall x, plain_spec g D x -> (coef (apply_diffusion (harmonics D) M g (2 * h) x) 1 - coef (to_spectral (harmonics D) g ref) 1 = RtoC c * (coef x 1 - coef (to_spectral (harmonics D) g ref) 1))%C) by (intros x Y; apply HF, (plain_length g D), Y).
  assert (HA : approaches (harmonics D) M init dt ref 1).
  { apply (relax_exception (harmonics D) g M init dt tm h rate ref 1 HC Hs Hh H1 (plain_spec g D)) with (c := c); auto using P_add, P_scale.
    - intros x Y. now apply (plain_length g D).
    - intros s Gs. now apply (axis_tends res rs om nt g Hg D A B D1 N1). }
  pose proof (mean_square_pos 0 1 ltac:(lia)) as PM. assert (PR : 0 < g_rsphere g ^ 2) by (apply pow_lt, (Hr res rs om nt g Hg)). set (w := g_rsphere g ^ 2 * (mean_square 0 1 / 2)). assert (W : 0 < w) by (apply Rmult_lt_0_compat; lra).
  destruct (HA (eps / w) ltac:(now apply Rdiv_lt_0_compat)) as [n0 Hn]. exists n0. intros n Ln. destruct (Hn n Ln) as [s [Hs' Ds]]. exists s. split; [exact Hs'|].
  assert (PS : plain_state g D s).
  { destruct (pair_ok (harmonics D) g M init dt tm h rate ref 1 HC Hs Hh H1 (plain_spec g D)) with (c := c) (n := n) as [E [Gs _]]; auto using P_add, P_scale.
    - intros x Y. now apply (plain_length g D).
    - intros q Gs. now apply (axis_tends res rs om nt g Hg D A B D1 N1).
    - destruct Hs' as [new E']. rewrite E in E'. apply Ok_inj in E'. rewrite E' in Gs. exact Gs. }
  assert (PB : plain_state g D b) by (split; [exact Gb|]; rewrite Eb; apply (plain_analysis res rs om nt g Hg D A B)).
  rewrite (axis_distance res rs om nt g Hg D A B D1 N1 s b ref PS PB Eb). fold w. replace eps with (w * (eps / w)) by (field; lra). apply Rmult_le_compat_l; lra.
Qed.
Print Assumptions C146_exception.

(** Example: 2.5 degrees, harmonics of degree <= 24; from the flow without absolute vorticity
    to a flow with PV proportional to the sine of latitude, with steps of 1/10 and of 1/2 of
    the time scale of the relaxation *)
Example C146_nonvacuous : exists g ref, mk_grid (5 / 2) 6371200 (7292 / 100000000) None = Ok g /\ (2 * 24 < g_nlat g)%nat /\ (2 * 24 < g_nlon g)%nat /\ (1 <= g_ntrunc g)%nat /\ shaped (g_nlat g) (g_nlon g) ref
  /\ let T := harmonics 24 in let init := mkState (K := numR) g (@VNum numR 0) (repeat (RtoC 0) (nspec (g_ntrunc g))) in let b := mkState (K := numR) g (@VNum numR 0) (to_spectral T g ref) in
  length (s_pvs init) = nspec (g_ntrunc g) /\ resolved (sph T g) (g_ntrunc g) (s_pvs init) /\ timed init (@VNum numR 600) 600
  /\ momentum T init <> momentum T b /\ 0 < / 6000 * 600 < 1 / 3 /\ 1 / 3 <= / 1200 * 600 /\ / 1200 * 600 <> 3 / 2.
Proof.
  destruct quarter_grid as [g [Hg [A [B [C O]]]]]. assert (A24 : (2 * 24 < g_nlat g)%nat) by lia. assert (B24 : (2 * 24 < g_nlon g)%nat) by lia. assert (D1 : (1 <= 24)%nat) by lia. assert (N1 : (1 <= g_ntrunc g)%nat) by lia.
  set (L := nspec (g_ntrunc g)). pose proof (one_lt _ _ _ _ g Hg 24 A24 B24 D1 N1) as H1. fold L in H1.
  set (x := tab L (fun k => if Nat.eqb k 1 then RtoC 1 else RtoC 0)). assert (CX : forall k, (k < L)%nat -> coef x k = if Nat.eqb k 1 then RtoC 1 else RtoC 0) by (intros k Hk; apply coef_tab, Hk).
  assert (E1 : degree (g_ntrunc g) 1 = 1%nat) by (clear -N1; destruct (g_ntrunc g); [lia|reflexivity]).
  assert (PX : plain_spec g 24 x).
  { split; [split; [apply tab_length|]|]; intros k Hk V; rewrite CX by exact Hk; destruct (Nat.eqb_spec k 1) as [->|]; try reflexivity. rewrite E1 in V. lia. }
  assert (P0 : plain_spec g 24 (repeat (RtoC 0) L)).
  { split; [split; [apply repeat_length|]|]; intros k Hk V; rewrite coef_zero; reflexivity. }
  pose proof (HE _ _ _ _ g Hg 24 A24 B24) as HE. set (T := harmonics 24).
  exists g, (to_grid T g x). split; [exact Hg|]. split; [exact A24|]. split; [exact B24|]. split; [exact N1|]. split; [apply (et_shape _ _ _ _ HE)|]. cbv zeta. fold T L.
  assert (EX : to_spectral T g (to_grid T g x) = x) by apply (P_res _ _ _ _ g Hg 24 A24 B24 x PX). rewrite EX. cbn [s_pvs].
  split; [apply repeat_length|]. split; [apply (P_res _ _ _ _ g Hg 24 A24 B24 _ P0)|]. split; [apply (timed_numbers _ _ _ 0); reflexivity|].
  split; [|split; [lra|split; lra]]. set (init := mkState g _ (repeat _ _)). set (b := mkState g _ x). intros V.
  pose proof (momentum_pv (K := numR) _ _ _ _ g Hg 24 A24 B24 D1 N1 init b 1 (conj eq_refl P0) (conj eq_refl PX)) as Q. fold T in Q. cbn [b init s_pvs] in Q. rewrite coef_zero, CX in Q by exact H1. cbn [Nat.eqb Re RtoC fst] in Q. specialize (Q ltac:(ring)).
  pose proof (mean_square_pos 0 1 ltac:(lia)) as PM. assert (PR : 0 < g_rsphere g ^ 2) by (apply pow_lt, (Hr _ _ _ _ g Hg)). fold init b in Q. rewrite V in Q. assert (0 < g_rsphere g ^ 2 * (mean_square 0 1 / 2 * 1)) by (apply Rmult_lt_0_compat; lra). lra.
Qed.
