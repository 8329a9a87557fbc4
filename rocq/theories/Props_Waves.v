(** C132: Rossby-Haurwitz waves. *)
From Coq Require Export String.
From Verif Require Import Base Model_Grid Model_Time Model_Spectral Model_State Model_Run.
From Verif Require Import Spec_Grid Spec_Spectral Spec_State Spec_Instance Spec_Simpson Spec_Run Spec_Calculus Spec_Sym Spec_Symmetry Spec_Relax Spec_Waves.
From Verif Require Import Proofs_Base Proofs_Grid Proofs_Spectral Proofs_Instance Proofs_State Proofs_Run Proofs_Step Proofs_Times Proofs_Relax Proofs_WaveRec Proofs_Waves Proofs_Simpson.
From Verif Require Import Props_Run Props_Relax.
From Coquelicot Require Import Rcomplements Complex.
From Coq Require Import List Lia Lra.
Import ListNotations.
Open Scope R_scope.

(** A solid-body rotation with harmonics of one degree keeps this form *)
Theorem C132_form : forall res rs om nt g T, mk_grid res rs om nt = Ok g -> exact_on T g -> resolved_divergence T g ->
  forall n, products_on T g n -> forall (M : bmodel numR) init dt h a z, timed init dt h -> rossby_wave T g a n z init ->
  m_rhs M = None -> m_coeff M = 0 ->
  forall i, exists s y, trajectory T M init dt i s /\ rossby_wave T g a n y s.
Proof.
  intros res rs om nt g T Hg H HF n HP M init dt h a z HT HI HM HC i. destruct (timed_clock _ _ _ HT) as [tm [CL HE]].
  destruct (wave_trajectory T res rs om nt g Hg H M init dt tm h a n z CL HE HP HF HM HC HI i) as [Ti [y Y]]. eauto.
Qed.
Print Assumptions C132_form.

Lemma wave_sequence res rs om nt g T : mk_grid res rs om nt = Ok g -> exact_on T g -> resolved_divergence T g ->
  forall n, products_on T g n -> forall (M : bmodel numR) init dt h a z, timed init dt h -> rossby_wave T g a n z init ->
  m_rhs M = None -> m_coeff M = 0 -> forall k, (k < nspec (g_ntrunc g))%nat ->
  exists s : nat -> state numR, (forall i, trajectory T M init dt i (s i)) /\ wave_part T g a (s 0%nat) k = coef z k
  /\ exists b, oscillation (frequency (g_omega g) a n (order (g_ntrunc g) k) * h) (fun i => wave_part T g a (s i) k) b.
Proof.
  intros Hg H HF n HP M init dt h a z HT HI HM HC k Hk. destruct (timed_clock _ _ _ HT) as [tm [CL HE]].
  exists (fun i => fst (pair T M init dt i)). split; [|split].
  - intros i. apply (wave_trajectory T res rs om nt g Hg H M init dt tm h a n z CL HE HP HF HM HC HI i).
  - exact (wave_start T res rs om nt g Hg H M init dt tm h a n z CL HE HP HF HM HC HI k Hk).
  - eexists. exact (wave_oscillates T res rs om nt g Hg H M init dt tm h a n z CL HE HP HF HM HC HI k Hk).
Qed.

(** After i steps every wave is close to the exact solution *)
Theorem C132_accuracy : forall res rs om nt g T, mk_grid res rs om nt = Ok g -> exact_on T g -> resolved_divergence T g ->
  forall n, products_on T g n -> forall (M : bmodel numR) init dt h a z, timed init dt h -> rossby_wave T g a n z init ->
  m_rhs M = None -> m_coeff M = 0 -> forall i k, (k < nspec (g_ntrunc g))%nat ->
  let w := frequency om a n (order (g_ntrunc g) k) in let x := Rabs (w * h) in
  exists s, trajectory T M init dt i s
  /\ Cmod (wave_part T g a s k - evolved w (INR i * h) (coef z k))%C
     <= exp (2 * (INR i * x)) * (x ^ 2 / 2 + x ^ 3 / 6 + INR i * (x ^ 2 / 5 + x ^ 3 / 3)) * Cmod (coef z k).
Proof.
  intros res rs om nt g T Hg H HF n HP M init dt h a z HT HI HM HC i k Hk w x.
  destruct (wave_sequence res rs om nt g T Hg H HF n HP M init dt h a z HT HI HM HC k Hk) as [s [TS [S0 [b O]]]].
  exists (s i). split; [apply TS|]. pose proof (wave_accurate _ _ _ O i) as E. cbv beta in E. rewrite S0 in E.
  rewrite (gf_om _ _ _ _ (mk_grid_facts _ _ _ _ _ Hg)) in E. fold w in E. unfold first_error, step_error in E. fold x in E. unfold evolved.
  replace (w * (INR i * h)) with (INR i * (w * h)) by ring. exact E.
Qed.
Print Assumptions C132_accuracy.

(** Integrations to a fixed time with ever shorter steps converge to the exact solution *)
Theorem C132_run : forall res rs om nt g T, mk_grid res rs om nt = Ok g -> exact_on T g -> resolved_divergence T g ->
  forall n, products_on T g n -> forall (M : bmodel numR) init a z t0 tend, s_time init = @VNum numR t0 -> t0 < tend -> rossby_wave T g a n z init ->
  m_rhs M = None -> m_coeff M = 0 -> forall k, (k < nspec (g_ntrunc g))%nat -> forall eps, 0 < eps ->
  exists m0, forall m, (m0 <= m)%nat -> (0 < m)%nat -> forall fuel se f r,
  run T M fuel init (@VNum numR ((tend - t0) / INR m)) (@VNum numR tend) se = Ok (f, r) ->
  Cmod (wave_part T g a f k - evolved (frequency om a n (order (g_ntrunc g) k)) (tend - t0) (coef z k))%C <= eps.
Proof.
  intros res rs om nt g T Hg H HF n HP M init a z t0 tend E0 Ht HI HM HC k Hk eps He.
  set (w := frequency om a n (order (g_ntrunc g) k)). set (t := tend - t0). assert (T0 : 0 < t) by (unfold t; lra).
  set (X := Rabs (w * t)). pose proof (Rabs_pos (w * t)) as X0. fold X in X0. set (c := Cmod (coef z k)). pose proof (Cmod_ge_0 (coef z k)) as C0. fold c in C0.
  set (B := exp (2 * X) * (X ^ 2 + X ^ 3) * c). pose proof (exp_pos (2 * X)) as EP.
  assert (X2 : 0 <= X ^ 2) by now apply pow_le. assert (X3 : 0 <= X ^ 3) by now apply pow_le.
  assert (B0 : 0 <= B) by (unfold B; apply Rmult_le_pos; [apply Rmult_le_pos|]; lra).
  destruct (nfloor_ex (B / eps)) as [m0 [_ F]]; [apply Rdiv_le_0_compat; lra|].
  exists (S m0). intros m Hm Pm fuel se f r HR.
  assert (P : 0 < INR m) by now apply lt_0_INR. assert (M1 : 1 <= INR m) by (apply (le_INR 1); lia).
  assert (HD : 0 < t / INR m) by now apply Rdiv_lt_0_compat.
  destruct (C30_stops_numbers _ _ _ _ _ _ _ _ _ _ E0 HR) as [j [Tj [_ [L1 L2]]]]; [lra|]. fold t in Tj, L1, L2.
  assert (MT : INR m * (t / INR m) = t) by (field; lra).
  assert (j = m).
  { apply Nat.le_antisymm.
    - destruct (le_lt_dec j m) as [|G]; [assumption|]. exfalso. specialize (L2 m G). unfold t in *. lra.
    - apply INR_le. assert (t <= INR j * (t / INR m)) by (unfold t in *; lra). rewrite <- MT in H0 at 1. apply Rmult_le_reg_r in H0; assumption. }
  subst j. set (h := t / INR m) in *.
  destruct (C132_accuracy res rs om nt g T Hg H HF n HP M init (@VNum numR h) h a z (timed_numbers _ _ _ t0 E0 eq_refl) HI HM HC m k Hk) as [s [Ts Es]].
  rewrite (traj_fun _ _ _ _ _ _ _ Tj Ts). cbv zeta in Es. fold w in Es. rewrite MT in Es. eapply Rle_trans; [exact Es|]. fold c.
  set (x := Rabs (w * h)). assert (EX : INR m * x = X). { unfold x, X. rewrite <- MT. fold h. rewrite <- (Rabs_right (INR m)) at 1 by lra. rewrite <- Rabs_mult. f_equal. ring. }
  rewrite EX. assert (x0 : 0 <= x) by apply Rabs_pos.
  assert (Q : x ^ 2 / 2 + x ^ 3 / 6 + INR m * (x ^ 2 / 5 + x ^ 3 / 3) <= (X ^ 2 + X ^ 3) / INR m).
  { apply (Rmult_le_reg_l (INR m)); [exact P|]. replace (INR m * ((X ^ 2 + X ^ 3) / INR m)) with (X ^ 2 + X ^ 3) by (field; lra). rewrite <- EX.
    assert (0 <= x ^ 2) by now apply pow_le. assert (0 <= x ^ 3) by now apply pow_le. set (u := INR m) in *.
    replace ((u * x) ^ 2 + (u * x) ^ 3) with (u * (u * x ^ 2) + u * (u * (u * x ^ 3))) by ring.
    replace (u * (x ^ 2 / 2 + x ^ 3 / 6 + u * (x ^ 2 / 5 + x ^ 3 / 3))) with (u * (x ^ 2 / 2 + u * x ^ 2 / 5) + u * (x ^ 3 / 6 + u * x ^ 3 / 3)) by field.
    assert (x ^ 2 <= u * x ^ 2) by nra. assert (x ^ 3 <= u * x ^ 3) by nra. assert (u * x ^ 3 <= u * (u * x ^ 3)) by nra.
    apply Rplus_le_compat; apply Rmult_le_compat_l; lra. }
  assert (exp (2 * X) * (x ^ 2 / 2 + x ^ 3 / 6 + INR m * (x ^ 2 / 5 + x ^ 3 / 3)) * c <= B / INR m).
  { replace (B / INR m) with (exp (2 * X) * ((X ^ 2 + X ^ 3) / INR m) * c) by (unfold B; field; lra).
    apply Rmult_le_compat_r; [exact C0|]. apply Rmult_le_compat_l; lra. }
  eapply Rle_trans; [exact H0|]. apply (Rmult_le_reg_r (INR m)); [exact P|]. replace (B / INR m * INR m) with B by (field; lra).
  assert (INR m0 + 1 <= INR m) by (rewrite <- S_INR; now apply le_INR). apply Rlt_le in F.
  apply (Rmult_le_compat_r eps) in F; [|lra]. replace (B / eps * eps) with B in F by (field; lra). nra.
Qed.
Print Assumptions C132_run.

(** Zonal harmonics and stationary waves do not change *)
Theorem C132_steady : forall res rs om nt g T, mk_grid res rs om nt = Ok g -> exact_on T g -> resolved_divergence T g ->
  forall n, products_on T g n -> forall (M : bmodel numR) init dt h a z, timed init dt h -> rossby_wave T g a n z init ->
  m_rhs M = None -> m_coeff M = 0 -> forall i k, (k < nspec (g_ntrunc g))%nat ->
  frequency om a n (order (g_ntrunc g) k) = 0 -> exists s, trajectory T M init dt i s /\ wave_part T g a s k = coef z k.
Proof.
  intros res rs om nt g T Hg H HF n HP M init dt h a z HT HI HM HC i k Hk W.
  destruct (wave_sequence res rs om nt g T Hg H HF n HP M init dt h a z HT HI HM HC k Hk) as [s [TS [S0 [b O]]]].
  exists (s i). split; [apply TS|]. rewrite <- S0. apply (wave_still _ _ _ O). rewrite (gf_om _ _ _ _ (mk_grid_facts _ _ _ _ _ Hg)), W. ring.
Qed.
Print Assumptions C132_steady.

(** The time filter makes every moving wave die out if the step is short enough ... *)
Theorem C132_damping : forall res rs om nt g T, mk_grid res rs om nt = Ok g -> exact_on T g -> resolved_divergence T g ->
  forall n, products_on T g n -> forall (M : bmodel numR) init dt h a z, timed init dt h -> 0 < h -> rossby_wave T g a n z init ->
  m_rhs M = None -> m_coeff M = 0 -> forall k, (k < nspec (g_ntrunc g))%nat ->
  let w := frequency om a n (order (g_ntrunc g) k) in w <> 0 -> (w * h) ^ 2 < 2 / 3 -> wave_dies T g M init dt a k.
Proof.
  intros res rs om nt g T Hg H HF n HP M init dt h a z HT Hh HI HM HC k Hk w W0 W eps He.
  destruct (wave_sequence res rs om nt g T Hg H HF n HP M init dt h a z HT HI HM HC k Hk) as [s [TS [S0 [b O]]]].
  rewrite (gf_om _ _ _ _ (mk_grid_facts _ _ _ _ _ Hg)) in O. fold w in O.
  destruct (wave_decays _ _ _ O) as [B [q [B0 [Q D]]]]; [apply Rmult_integral_contrapositive_currified; lra|exact W|].
  destruct (pow_lt_1_zero q ltac:(rewrite Rabs_right; lra) (eps / (B + 1))) as [n0 N0]; [apply Rdiv_lt_0_compat; lra|].
  exists n0. intros i Hi. exists (s i). split; [apply TS|]. specialize (N0 i Hi). specialize (D i). cbv beta in D.
  assert (P : 0 <= q ^ i) by (apply pow_le; lra). rewrite Rabs_right in N0 by lra.
  assert (B * q ^ i <= (B + 1) * (eps / (B + 1))) by (apply Rmult_le_compat; lra). replace ((B + 1) * (eps / (B + 1))) with eps in H0 by (field; lra). lra.
Qed.
Print Assumptions C132_damping.

(** ... they stay bounded up to a frequency times step of sqrt(2/3) ... *)
Theorem C132_stable : forall res rs om nt g T, mk_grid res rs om nt = Ok g -> exact_on T g -> resolved_divergence T g ->
  forall n, products_on T g n -> forall (M : bmodel numR) init dt h a z, timed init dt h -> rossby_wave T g a n z init ->
  m_rhs M = None -> m_coeff M = 0 -> forall k, (k < nspec (g_ntrunc g))%nat ->
  (frequency om a n (order (g_ntrunc g) k) * h) ^ 2 <= 2 / 3 -> wave_bounded T g M init dt a k.
Proof.
  intros res rs om nt g T Hg H HF n HP M init dt h a z HT HI HM HC k Hk W.
  destruct (wave_sequence res rs om nt g T Hg H HF n HP M init dt h a z HT HI HM HC k Hk) as [s [TS [S0 [b O]]]].
  rewrite (gf_om _ _ _ _ (mk_grid_facts _ _ _ _ _ Hg)) in O. destruct (wave_limited _ _ _ O W) as [B D].
  exists B. intros i. exists (s i). split; [apply TS|apply D].
Qed.
Print Assumptions C132_stable.

(** ... and grow without bound beyond *)
Theorem C132_unstable : forall res rs om nt g T, mk_grid res rs om nt = Ok g -> exact_on T g -> resolved_divergence T g ->
  forall n, products_on T g n -> forall (M : bmodel numR) init dt h a z, timed init dt h -> rossby_wave T g a n z init ->
  m_rhs M = None -> m_coeff M = 0 -> forall k, (k < nspec (g_ntrunc g))%nat -> coef z k <> RtoC 0 ->
  2 / 3 < (frequency om a n (order (g_ntrunc g) k) * h) ^ 2 -> wave_explodes T g M init dt a k.
Proof.
  intros res rs om nt g T Hg H HF n HP M init dt h a z HT HI HM HC k Hk Z W most.
  destruct (wave_sequence res rs om nt g T Hg H HF n HP M init dt h a z HT HI HM HC k Hk) as [s [TS [S0 [b O]]]].
  rewrite (gf_om _ _ _ _ (mk_grid_facts _ _ _ _ _ Hg)) in O. destruct (wave_grows _ _ _ O W) with (B := most) as [n0 N0]; [cbv beta; now rewrite S0|].
  exists n0. intros i Hi. exists (s i). split; [apply TS|now apply N0].
Qed.
Print Assumptions C132_unstable.

(** Example: a solid-body rotation about a tilted axis on a planet that turns once
    per 2 pi time units.  Its axis precesses once per rotation of the planet whatever
    its strength; steps of 4/5 are stable, steps of 1 are not. *)
Example C132_example :
  let g := d1_grid 1 1 in let z := [RtoC 0; RtoC 0; RtoC 1] in let M := mkModel (K := numR) None 1 0 None in
  let init := mkState (K := numR) g (@VNum numR 0) [RtoC 0; RtoC 5; RtoC 1] in
  mk_grid 90 1 1 (Some 1%Z) = Ok g /\ exact_on s1_family g /\ resolved_divergence s1_family g /\ products_on s1_family g 1
  /\ rossby_wave s1_family g 3 1 z init /\ frequency 1 3 1 (order 1 2) = 1
  /\ wave_dies s1_family g M init (@VNum numR (4 / 5)) 3 2 /\ wave_explodes s1_family g M init (@VNum numR 1) 3 2.
Proof.
  intros g z M init. assert (Hg : mk_grid 90 1 1 (Some 1%Z) = Ok g) by (apply d1_grid_ok; lra).
  assert (H : exact_on s1_family g) by (apply s1_exact; lra). assert (HF : resolved_divergence s1_family g) by apply s1_divergences.
  assert (HP : products_on s1_family g 1) by (apply s1_products; lra).
  assert (W : frequency 1 3 1 (order 1 2) = 1) by (unfold frequency, order, order_from; cbn; field).
  assert (HI : rossby_wave s1_family g 3 1 z init).
  { split; [reflexivity|]. split; [split; [reflexivity|]|split].
    - intros k Hk D. change (nspec (g_ntrunc g)) with 3%nat in Hk. destruct k as [|[|[|k]]]; try lia; [reflexivity|reflexivity|]. exfalso. apply D. reflexivity.
    - apply s1_resolved; [reflexivity|]. split; reflexivity.
    - unfold rotating, to_spectral. cbn [g d1_grid sph s1_family sh_grdtospec g_nlat g_nlon g_ntrunc g_omega init s_pvs]. rewrite s1_sine, s1_sine_spectral.
      unfold sadd, sscale, z. cbn [map map2]. list3; unfold Cplus, Cmult, RtoC; cbn [fst snd]; apply pair_eqC; ring. }
  repeat (split; [assumption|]). split.
  - apply (C132_damping 90 1 1 (Some 1%Z) g s1_family Hg H HF 1 HP M init _ (4 / 5) 3 z (timed_numbers init _ _ 0 eq_refl eq_refl) ltac:(lra) HI eq_refl eq_refl);
      cbn [g d1_grid g_ntrunc]; [change (nspec 1) with 3%nat; lia| |]; rewrite W; lra.
  - apply (C132_unstable 90 1 1 (Some 1%Z) g s1_family Hg H HF 1 HP M init _ 1 3 z (timed_numbers init _ _ 0 eq_refl eq_refl) HI eq_refl eq_refl);
      cbn [g d1_grid g_ntrunc]; [change (nspec 1) with 3%nat; lia| |rewrite W; lra]. cbn. intros E. apply RtoC_inj in E. lra.
Qed.
