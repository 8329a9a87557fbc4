(** C147: integrations with a forcing that is switched off. *)
From Coq Require Export String.
From Verif Require Import Base Model_Grid Model_Time Model_Spectral Model_State Model_Run Model_RHS.
From Verif Require Import Spec_Grid Spec_Spectral Spec_State Spec_Instance Spec_Run Spec_RHS Spec_Switch.
From Verif Require Import Proofs_Base Proofs_Grid Proofs_Spectral Proofs_Instance Proofs_State Proofs_Run Proofs_Times Proofs_Step Proofs_Elapsed Props_RHS.
From Coq Require Import List Lia Lra.
Import ListNotations.
Open Scope R_scope.

Section Switched.
Context {K : numtype} (T : sphfam) (g : grid).
Hypothesis HE : exact_on T g.
Variables (M : bmodel K) (f v : obj K) (tend : pyval K).
Hypothesis HF : gives_fields T g f.
Hypothesis Hv : op_mul f (PSwitch tend) = Ok v \/ op_mul (PSwitch tend) f = Ok v.
Notation Ms := (with_rhs M (Some (call T v))).
Notation Mf := (with_rhs M (Some (call T f))).
Notation M0 := (with_rhs M None).

Lemma product_value s on : s_grid s = g -> py_le (s_time s) tend = Ok on ->
  exists F, call T f s = Ok (FMat F) /\ call T v s = Ok (FMat (if on then F else mat_of (g_nlat g) (g_nlon g) (fun _ _ => 0))).
Proof.
  intros G E. destruct (HF s G) as [F [EF SF]]. exists F. split; [exact EF|].
  assert (V : v = PProd f (PSwitch tend) \/ v = PProd (PSwitch tend) f).
  { destruct Hv as [Q|Q]; unfold op_mul in Q; cbn [is_rhs] in Q; rewrite ?orb_true_r in Q; injection Q as <-; auto. }
  destruct V as [-> | ->]; cbn [call]; rewrite EF; unfold switch_call; rewrite E; cbn [bind fbin]; f_equal; f_equal; destruct on;
    apply (mat_ext (g_nlat g) (g_nlon g)); auto using shaped_mmap, shaped_mat_of; intros i j Hi Hj; rewrite (mget_mmap (g_nlat g) (g_nlon g)) by auto; rewrite ?mget_mat_of by auto; ring.
Qed.
Lemma switched_on s : s_grid s = g -> py_le (s_time s) tend = Ok true -> pv_tendency_spectral T Ms s = pv_tendency_spectral T Mf s.
Proof. intros G E. destruct (product_value s true G E) as [F [E1 E2]]. unfold pv_tendency_spectral. cbn [with_rhs m_rhs]. now rewrite E1, E2. Qed.
Lemma switched_off s : s_grid s = g -> py_le (s_time s) tend = Ok false -> pv_tendency_spectral T Ms s = pv_tendency_spectral T M0 s.
Proof.
  intros G E. destruct (product_value s false G E) as [F [E1 E2]]. unfold pv_tendency_spectral. cbn [with_rhs m_rhs]. rewrite E2. cbn [bind]. rewrite G, (analysis_zero T g HE). f_equal. apply add_zeros.
  rewrite sopp_length. now apply (flux_length T g HE).
Qed.
Lemma same_leapfrog a b nu : pv_tendency_spectral T Ms b = pv_tendency_spectral T Mf b -> leapfrog T Ms a b nu = leapfrog T Mf a b nu.
Proof. intros E. unfold leapfrog. rewrite E. reflexivity. Qed.
Lemma free_leapfrog a b nu : pv_tendency_spectral T Ms b = pv_tendency_spectral T M0 b -> leapfrog T Ms a b nu = leapfrog T M0 a b nu.
Proof. intros E. unfold leapfrog. rewrite E. reflexivity. Qed.
Lemma grids (A : bmodel K) init dt n p : s_grid init = g -> steps T A init dt n = Ok p -> s_grid (fst p) = g /\ s_grid (snd p) = g.
Proof.
  intros G. revert p. induction n as [|n IH]; intros p E; cbn [steps] in E.
  - destruct (euler T A init dt) as [e|x] eqn:Ee; [|discriminate]. cbn [bind] in E. injection E as <-. apply euler_facts in Ee. cbn. destruct Ee as [-> _]. auto.
  - destruct (steps T A init dt n) as [q|x]; [|discriminate]. cbn [bind] in E. destruct (IH q eq_refl) as [_ G2]. destruct p as [a b]. apply leapfrog_facts in E. cbn. destruct E as [E1 [E2 _]]. rewrite E1, E2. auto.
Qed.
Lemma before init dt tm n : s_grid init = g -> clock init dt tm -> (forall m, (m <= n)%nat -> py_le (tm m) tend = Ok true) -> steps T Ms init dt n = steps T Mf init dt n.
Proof.
  intros G HC. induction n as [|n IH]; intros HO; cbn [steps].
  - unfold euler. rewrite (switched_on init G) by (destruct HC as [-> _]; now apply HO). reflexivity.
  - rewrite IH by (intros m Hm; apply HO; lia). destruct (steps T Mf init dt n) as [p|x] eqn:E; [|reflexivity]. cbn [bind]. apply same_leapfrog, switched_on; [apply (grids Mf init dt n p G E)|]. destruct p as [a b]. destruct (clock_times T Mf init dt tm HC n a b E) as [_ Tb]. cbn [snd]. rewrite Tb. now apply HO.
Qed.
Lemma after init dt tm n m : s_grid init = g -> clock init dt tm -> (forall l, (n < l)%nat -> py_le (tm l) tend = Ok false) -> steps T Ms init dt (m + n) = bind (steps T Ms init dt n) (more_steps T M0 m).
Proof.
  intros G HC HO. induction m as [|m IH]; cbn [Nat.add steps more_steps]; [destruct (steps T Ms init dt n); reflexivity|].
  destruct (steps T Ms init dt (m + n)) as [q|x] eqn:E; [|cbn [bind]; destruct (steps T Ms init dt n) as [p|y]; cbn [bind] in *; [rewrite <- IH; reflexivity|congruence]].
  cbn [bind]. destruct (steps T Ms init dt n) as [p|y]; [|discriminate]. cbn [bind] in *. rewrite <- IH. cbn [bind]. apply free_leapfrog, switched_off; [apply (grids Ms init dt _ q G E)|].
  destruct q as [a b]. destruct (clock_times T Ms init dt tm HC _ a b E) as [_ Tb]. cbn [snd]. rewrite Tb. apply HO. lia.
Qed.
End Switched.

(** Until the end time the integration is that with the forcing alone ... *)
Theorem C147_before : forall T g, exact_on T g -> forall (M : bmodel numR) f v (tend t0 dt : R) init, gives_fields T g f ->
  op_mul f (PSwitch (@VNum numR tend)) = Ok v \/ op_mul (PSwitch (@VNum numR tend)) f = Ok v ->
  s_grid init = g -> s_time init = @VNum numR t0 -> 0 <= dt -> forall n, t0 + INR n * dt <= tend ->
  steps T (with_rhs M (Some (call T v))) init (@VNum numR dt) n = steps T (with_rhs M (Some (call T f))) init (@VNum numR dt) n.
Proof.
  intros T g HE M f v tend t0 dt init HF Hv G Ht Hd n Hn. apply (before T g M f v _ HF Hv init _ _ n G (clock_R init t0 dt Ht)). intros m Hm. cbn [py_le]. f_equal. apply Rleb_true. apply le_INR in Hm. pose proof (Rmult_le_compat_r dt _ _ Hd Hm). lra.
Qed.
Print Assumptions C147_before.

(** ... and as soon as the newer state of the pair is later than the end time, all further
    steps are those without forcing *)
Theorem C147_after : forall T g, exact_on T g -> forall (M : bmodel numR) f v (tend t0 dt : R) init, gives_fields T g f ->
  op_mul f (PSwitch (@VNum numR tend)) = Ok v \/ op_mul (PSwitch (@VNum numR tend)) f = Ok v ->
  s_grid init = g -> s_time init = @VNum numR t0 -> 0 <= dt -> forall n, tend < t0 + INR (n + 1) * dt -> forall m,
  steps T (with_rhs M (Some (call T v))) init (@VNum numR dt) (m + n) = (do p <- steps T (with_rhs M (Some (call T v))) init (@VNum numR dt) n; more_steps T (with_rhs M None) m p).
Proof.
  intros T g HE M f v tend t0 dt init HF Hv G Ht Hd n Hn m. apply (after T g HE M f v _ HF Hv init _ _ n m G (clock_R init t0 dt Ht)). intros l Hl. cbn [py_le]. f_equal. apply Rleb_false. assert (L : (n + 1 <= l)%nat) by lia. apply le_INR in L. pose proof (Rmult_le_compat_r dt _ _ Hd L). lra.
Qed.
Print Assumptions C147_after.

(** Both with dates *)
Theorem C147_dates : forall K T g, exact_on T g -> forall (M : bmodel K) f v (tend d us : Z) init, gives_fields T g f ->
  op_mul f (PSwitch (VDate tend)) = Ok v \/ op_mul (PSwitch (VDate tend)) f = Ok v ->
  s_grid init = g -> s_time init = VDate d -> (0 <= us)%Z -> forall n,
  ((d + Z.of_nat n * us <= tend)%Z -> steps T (with_rhs M (Some (call T v))) init (VDelta us) n = steps T (with_rhs M (Some (call T f))) init (VDelta us) n)
  /\ ((tend < d + Z.of_nat (n + 1) * us)%Z -> forall m,
      steps T (with_rhs M (Some (call T v))) init (VDelta us) (m + n) = (do p <- steps T (with_rhs M (Some (call T v))) init (VDelta us) n; more_steps T (with_rhs M None) m p)).
Proof.
  intros K T g HE M f v tend d us init HF Hv G Ht Hu n. split.
  - intros Hn. apply (before T g M f v _ HF Hv init _ _ n G (clock_date init d us Ht)). intros m Hm. cbn [py_le]. f_equal. apply Z.leb_le. nia.
  - intros Hn m. apply (after T g HE M f v _ HF Hv init _ _ n m G (clock_date init d us Ht)). intros l Hl. cbn [py_le]. f_equal. apply Z.leb_gt. nia.
Qed.
Print Assumptions C147_dates.

(** Both with times since the start *)
Theorem C147_elapsed : forall K T g, exact_on T g -> forall (M : bmodel K) f v (tend d us : Z) init, gives_fields T g f ->
  op_mul f (PSwitch (VDelta tend)) = Ok v \/ op_mul (PSwitch (VDelta tend)) f = Ok v ->
  s_grid init = g -> s_time init = VDelta d -> (0 <= us)%Z -> forall n,
  ((d + Z.of_nat n * us <= tend)%Z -> steps T (with_rhs M (Some (call T v))) init (VDelta us) n = steps T (with_rhs M (Some (call T f))) init (VDelta us) n)
  /\ ((tend < d + Z.of_nat (n + 1) * us)%Z -> forall m,
      steps T (with_rhs M (Some (call T v))) init (VDelta us) (m + n) = (do p <- steps T (with_rhs M (Some (call T v))) init (VDelta us) n; more_steps T (with_rhs M None) m p)).
Proof.
  intros K T g HE M f v tend d us init HF Hv G Ht Hu n. split.
  - intros Hn. apply (before T g M f v _ HF Hv init _ _ n G (clock_delta init d us Ht)). intros m Hm. cbn [py_le]. f_equal. apply Z.leb_le. nia.
  - intros Hn m. apply (after T g HE M f v _ HF Hv init _ _ n m G (clock_delta init d us Ht)). intros l Hl. cbn [py_le]. f_equal. apply Z.leb_gt. nia.
Qed.
Print Assumptions C147_elapsed.

(** Example: relaxation on the grid of 90 degrees, switched off between the third and the fourth step *)
Example C147_nonvacuous : let g := d1_grid 1 1 in let f := PRelax (1 / 10) (FMat (mat_of 3 4 (fun _ _ => 7))) : obj numR in
  exact_on d1_family g /\ gives_fields d1_family g f /\ (exists v, op_mul f (PSwitch (@VNum numR 135)) = Ok v)
  /\ s_grid example_s = g /\ s_time example_s = @VNum numR 100 /\ 100 + INR 3 * 10 <= 135 < 100 + INR (3 + 1) * 10.
Proof.
  cbv zeta. assert (HE := d1_exact 1 1 ltac:(lra)). split; [exact HE|]. split.
  - intros s G. destruct (C41_relaxation numR d1_family _ HE s (1 / 10) (mat_of 3 4 (fun _ _ => 7)) G (shaped_mat_of _ _ _)) as [F [E [S _]]]. exists F. now split.
  - split; [eexists; reflexivity|]. split; [reflexivity|]. split; [reflexivity|]. cbn [INR Nat.add]. lra.
Qed.
