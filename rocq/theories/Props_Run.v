(** Integrations with BarotropicModel (C23, C30-C38). *)
From Coq Require Export String.
From Verif Require Import Base Model_Grid Model_Time Model_Spectral Model_State Model_Run Model_Init.
From Verif Require Import Spec_Grid Spec_Spectral Spec_State Spec_Instance Spec_Run.
From Verif Require Import Proofs_Base Proofs_Grid Proofs_Spectral Proofs_Instance Proofs_State.
From Verif Require Import Proofs_Run Proofs_Times Proofs_Save Proofs_Step.
From Coquelicot Require Import Coquelicot.
From Coq Require Import List Lia Lra.
Open Scope R_scope.

Lemma made_radius res rs om nt g : mk_grid res rs om nt = Ok g -> g_rsphere g <> 0.
Proof.
  intros Hg. pose proof (mk_grid_facts _ _ _ _ _ Hg) as F. rewrite (gf_rs _ _ _ _ F). pose proof (gf_rs_pos _ _ _ _ F). lra.
Qed.

(** C23 *)
Theorem C23_background_fixed : forall K T g, exact_on T g -> forall res rs om nt, mk_grid res rs om nt = Ok g ->
  forall (M : bmodel K) bg dt, m_bg M = Some bg ->
  apply_diffusion T M g dt (to_spectral T g bg) = to_spectral T g bg.
Proof. intros K T g H res rs om nt Hg. apply (bg_fixed T g H (made_radius _ _ _ _ _ Hg)). Qed.
Print Assumptions C23_background_fixed.

Theorem C23_deviation : forall K T g, exact_on T g ->
  forall (M : bmodel K) bg dt x, m_bg M = Some bg -> length x = nspec (g_ntrunc g) ->
  ssub (apply_diffusion T M g dt x) (to_spectral T g bg)
  = apply_diffusion T (mkModel (m_rhs M) (m_order M) (m_coeff M) None) g dt (ssub x (to_spectral T g bg)).
Proof. intros K T g H. apply (bg_deviation T g H). Qed.
Print Assumptions C23_deviation.

Theorem C23_zero_background : forall K T g, exact_on T g ->
  forall (M : bmodel K) dt x, m_bg M = Some (mat_of (g_nlat g) (g_nlon g) (fun _ _ => 0)) -> length x = nspec (g_ntrunc g) ->
  apply_diffusion T M g dt x = apply_diffusion T (mkModel (m_rhs M) (m_order M) (m_coeff M) None) g dt x.
Proof. intros K T g H. apply (bg_zero T g H). Qed.
Print Assumptions C23_zero_background.

(** background-free diffusion is the implicit Euler step of C22 *)
Theorem C23_background_free : forall K T (M : bmodel K) g dt x, m_bg M = None ->
  apply_diffusion T M g dt x = solve_diffusion_spectral g x (m_coeff M) dt (m_order M).
Proof. intros K T M g dt x E. unfold apply_diffusion. now rewrite E. Qed.
Print Assumptions C23_background_free.
Example C23_nonvacuous : exact_on d1_family (d1_grid 1 1) /\ mk_grid 90 1 1 (Some 1%Z) = Ok (d1_grid 1 1)
  /\ m_bg (mkModel (K := numR) None 2 1 (Some (g_fcor2 (d1_grid 1 1)))) = Some (g_fcor2 (d1_grid 1 1)).
Proof. split; [apply d1_exact; lra|]. split; [apply d1_grid_ok; lra|reflexivity]. Qed.

(** C30: whatever run returns ... *)
Theorem C30_stops_numbers : forall T M fuel (init : state numR) (t0 dt tend : R) se f r,
  s_time init = @VNum numR t0 ->
  run T M fuel init (@VNum numR dt) (@VNum numR tend) se = Ok (f, r) -> t0 <= tend ->
  exists N, trajectory T M init (@VNum numR dt) N f /\ s_time f = @VNum numR (t0 + INR N * dt)
    /\ tend <= t0 + INR N * dt /\ forall m, (m < N)%nat -> t0 + INR m * dt < tend.
Proof. exact run_R_sound. Qed.
Print Assumptions C30_stops_numbers.

Theorem C30_stops_dates : forall K T M fuel (init : state K) d us tend se f r,
  s_time init = VDate d -> run T M fuel init (VDelta us) (VDate tend) se = Ok (f, r) -> (d <= tend)%Z ->
  exists N, trajectory T M init (VDelta us) N f /\ s_time f = VDate (d + Z.of_nat N * us)
    /\ (tend <= d + Z.of_nat N * us)%Z /\ forall m, (m < N)%nat -> (d + Z.of_nat m * us < tend)%Z.
Proof. exact (@run_date_sound). Qed.
Print Assumptions C30_stops_dates.

(** ... and it does return if the forcing returns fields *)
Theorem C30_returns_numbers : forall T M (init : state numR) (t0 dt tend se : R), forcing_ok M ->
  s_time init = @VNum numR t0 -> 0 < dt -> t0 <= tend ->
  exists fuel0 f l, forall fuel, (fuel0 <= fuel)%nat ->
    run T M fuel init (@VNum numR dt) (@VNum numR tend) (@VNum numR se) = Ok (f, AStateList l).
Proof.
  intros T M init t0 dt tend se HF H0 Hd Ht. destruct (run_R_ok T M init t0 dt tend se HF H0 Hd Ht) as [N [_ [_ HR]]].
  exists (S N). do 2 eexists. intros fuel L. apply HR. lia.
Qed.
Print Assumptions C30_returns_numbers.

Theorem C30_returns_dates : forall T (M : bmodel numR) init d us tend (se : R), forcing_ok M ->
  s_time init = VDate d -> (0 < us)%Z -> (d <= tend)%Z -> se <= 0 ->
  exists fuel0 f l, forall fuel, (fuel0 <= fuel)%nat ->
    run T M fuel init (VDelta us) (VDate tend) (@VNum numR se) = Ok (f, AStateList l).
Proof.
  intros T M init d us tend se HF H0 Hd Ht Hs.
  assert (E : py_lt (VNum (n_zero numR)) (@VNum numR se) = Ok false) by (cbn; f_equal; now apply Rltb_false).
  destruct (run_date_ok T M init d us tend (@VNum numR se) HF H0 Hd Ht E) as [N [_ [_ HR]]].
  exists (S N). do 2 eexists. intros fuel L. apply HR. lia.
Qed.
Print Assumptions C30_returns_dates.

Theorem C30_past : forall K T (M : bmodel K) fuel init dt tend se, py_lt tend (s_time init) = Ok true ->
  run T M fuel init dt tend se = Ok (init, PlainList (init :: nil)).
Proof. exact (fun K T M => @run_past T K M). Qed.
Print Assumptions C30_past.

Definition example_init : state numR := mkState (d1_grid 1 1) (@VNum numR 100) [RtoC 0; RtoC 5; Ci].
Definition example_date : state numR := mkState (d1_grid 1 1) (VDate 100) [RtoC 0; RtoC 5; Ci].
Definition example_model : bmodel numR := mkModel None 2 1 None.
Definition example_forced : bmodel numR := mkModel (Some (fun s => Ok (FMat (s_pv d1_family s)))) 2 1 None.
Example C30_nonvacuous : forcing_ok example_model /\ forcing_ok example_forced
  /\ s_time example_init = @VNum numR 100 /\ 0 < 7 /\ 100 <= 200 /\ s_time example_date = VDate 100
  /\ py_lt (@VNum numR 99) (s_time example_init) = Ok true.
Proof.
  split; [exact I|]. split; [intros s; cbn; eauto|]. repeat split; try lra. cbn. f_equal. apply Rltb_true. lra.
Qed.

(** C31: exact arithmetic *)
Theorem C31_terminates_numbers : forall T M (init : state numR) (t0 dt tend : R) se, python_forcing M ->
  s_time init = @VNum numR t0 -> 0 < dt ->
  exists N, forall fuel, (N < fuel)%nat -> run T M fuel init (@VNum numR dt) (@VNum numR tend) se <> Err OutOfFuel.
Proof. exact run_R_halts. Qed.
Print Assumptions C31_terminates_numbers.

Theorem C31_terminates_dates : forall K T M (init : state K) d us tend se, python_forcing M ->
  s_time init = VDate d -> (0 < us)%Z ->
  exists N, forall fuel, (N < fuel)%nat -> run T M fuel init (VDelta us) (VDate tend) se <> Err OutOfFuel.
Proof. exact (@run_date_halts). Qed.
Print Assumptions C31_terminates_dates.

Theorem C31_diverges : forall T M (init : state numR) (t0 dt tend se : R), forcing_ok M ->
  s_time init = @VNum numR t0 -> dt <= 0 -> t0 < tend ->
  forall fuel, run T M fuel init (@VNum numR dt) (@VNum numR tend) (@VNum numR se) = Err OutOfFuel.
Proof. exact run_R_diverges. Qed.
Print Assumptions C31_diverges.

(** double precision: from time 2^53, steps of 1 never reach 2^53 + 4 *)
Theorem C31_double_precision_refuted : forall T (M : bmodel num64) (init : state num64), forcing_ok M ->
  s_time init = @VNum num64 (b64_of_Z (2 ^ 53)) ->
  forall fuel, run T M fuel init (@VNum num64 (b64_of_Z 1)) (@VNum num64 (b64_of_Z (2 ^ 53 + 4))) (@VNum num64 (S754_zero false))
    = Err OutOfFuel.
Proof. exact run_64_diverges. Qed.
Print Assumptions C31_double_precision_refuted.
Example C31_nonvacuous : python_forcing example_forced /\ forcing_ok (mkModel (K := num64) None 2 1 None)
  /\ s_time (mkState (K := num64) (d1_grid 1 1) (@VNum num64 (b64_of_Z (2 ^ 53))) (RtoC 0 :: nil)) = @VNum num64 (b64_of_Z (2 ^ 53))
  /\ SFltb (b64_of_Z (2 ^ 53)) (b64_of_Z (2 ^ 53 + 4)) = true.
Proof. split; [intros s; discriminate|]. split; [exact I|]. split; [reflexivity|vm_compute; reflexivity]. Qed.

(** C32: saved states are those at absolute multiples of save_every, which are
    the elapsed save intervals iff the integration starts at time 0 *)
Theorem C32_saves_partial : forall T M (init : state numR) (dt s : R), 0 < dt ->
  forall fuel tend f l, s_time init = @VNum numR 0 -> dt <= s ->
  run T M fuel init (@VNum numR dt) (@VNum numR tend) (@VNum numR s) = Ok (f, AStateList l) ->
  exists N ns l', trajectory T M init (@VNum numR dt) N f /\ l = init :: l'
    /\ Forall2 (trajectory T M init (@VNum numR dt)) ns l'
    /\ forall k n, nth_error ns k = Some n <-> (n <= N)%nat /\ first_step 0 dt (INR (S k) * s) n.
Proof. intros T M init dt s Hd fuel tend f l H0 Hs. apply run_saves; auto. lra. Qed.
Print Assumptions C32_saves_partial.

Theorem C32_absolute_times : forall T M (init : state numR) (t0 dt s : R), 0 < dt ->
  forall fuel tend f l, s_time init = @VNum numR t0 -> dt <= s -> t0 < s ->
  run T M fuel init (@VNum numR dt) (@VNum numR tend) (@VNum numR s) = Ok (f, AStateList l) ->
  exists N ns l', trajectory T M init (@VNum numR dt) N f /\ l = init :: l'
    /\ Forall2 (trajectory T M init (@VNum numR dt)) ns l'
    /\ forall k n, nth_error ns k = Some n <-> (n <= N)%nat /\ first_step t0 dt (INR (S k) * s) n.
Proof. exact run_saves. Qed.
Print Assumptions C32_absolute_times.

Theorem C32_no_saving : forall T M (init : state numR) (dt s : R) fuel tend f l, s <= 0 ->
  run T M fuel init (@VNum numR dt) (@VNum numR tend) (@VNum numR s) = Ok (f, AStateList l) -> l = init :: nil.
Proof. exact run_saves_none. Qed.
Print Assumptions C32_no_saving.

(** start at time 100 with save_every 10 and dt 1: a state is saved after 1 s *)
Theorem C32_start_time_refuted : forall T (M : bmodel numR) init, forcing_ok M -> s_time init = @VNum numR 100 ->
  exists f, run T M 2 init (@VNum numR 1) (@VNum numR 101) (@VNum numR 10) = Ok (f, AStateList [init; f])
    /\ s_time f = @VNum numR 101.
Proof. exact saves_refuted. Qed.
Print Assumptions C32_start_time_refuted.
Example C32_nonvacuous : forcing_ok example_model /\ s_time example_init = @VNum numR 100
  /\ s_time (mkState (K := numR) (d1_grid 1 1) (@VNum numR 0) (RtoC 0 :: nil)) = @VNum numR 0 /\ 0 < 7 <= 20
  /\ first_step 0 7 (INR 1 * 20) 3 /\ first_step 0 7 (INR 2 * 20) 6.
Proof.
  split; [exact I|]. split; [reflexivity|]. split; [reflexivity|]. split; [lra|].
  split; (split; [lia|split; [cbn; lra|]]); intros m Hm.
  - destruct m as [|[|[|m]]]; try lia; cbn; lra.
  - destruct m as [|[|[|[|[|[|m]]]]]]; try lia; cbn; lra.
Qed.

(** C33 *)
Theorem C33_numbers : forall T M (init : state numR) dt se (tend1 tend2 : R) fuel1 fuel2 f1 r1 f2 r2 (t0 : R),
  s_time init = @VNum numR t0 -> tend1 <= tend2 ->
  run T M fuel1 init dt (@VNum numR tend1) se = Ok (f1, r1) -> run T M fuel2 init dt (@VNum numR tend2) se = Ok (f2, r2) ->
  (exists rest, items r2 = items r1 ++ rest)
  /\ (tend1 < t0 /\ f1 = init
      \/ exists N1 N2, (N1 <= N2)%nat /\ trajectory T M init dt N1 f1 /\ trajectory T M init dt N2 f2).
Proof.
  intros T M init dt se tend1 tend2 fuel1 fuel2 f1 r1 f2 r2 t0 H0 Ht R1 R2.
  destruct (run_extends T M init dt se (@VNum numR tend1) (@VNum numR tend2) fuel1 fuel2 f1 r1 f2 r2) as [A B]; auto.
  - intros [x|d|d]; try discriminate. rewrite !py_lt_R. intros E. f_equal. apply Rltb_true.
    assert (E' : Rltb x tend1 = true) by congruence. apply Rltb_true in E'. cbn in *. lra.
  - rewrite H0, !py_lt_R. intros E. f_equal. apply Rltb_true.
    assert (E' : Rltb tend2 t0 = true) by congruence. apply Rltb_true in E'. lra.
  - split; [exact A|]. destruct B as [[B1 B2]|B]; [left|now right]. split; [|exact B2].
    rewrite H0, py_lt_R in B1. apply Rltb_true. congruence.
Qed.
Print Assumptions C33_numbers.

Theorem C33_double_precision : forall T M (init : state num64) dt se (tend1 tend2 t0 : b64) fuel1 fuel2 f1 r1 f2 r2,
  s_time init = @VNum num64 t0 -> SFleb tend1 tend2 = true -> SFltb tend1 t0 = false -> SFltb tend2 t0 = false ->
  run T M fuel1 init dt (@VNum num64 tend1) se = Ok (f1, r1) -> run T M fuel2 init dt (@VNum num64 tend2) se = Ok (f2, r2) ->
  (exists rest, items r2 = items r1 ++ rest)
  /\ exists N1 N2, (N1 <= N2)%nat /\ trajectory T M init dt N1 f1 /\ trajectory T M init dt N2 f2.
Proof.
  intros T M init dt se tend1 tend2 t0 fuel1 fuel2 f1 r1 f2 r2 H0 Ht P1 P2 R1 R2.
  destruct (run_extends T M init dt se (@VNum num64 tend1) (@VNum num64 tend2) fuel1 fuel2 f1 r1 f2 r2) as [A B]; auto.
  - intros [x|d|d]; try discriminate. cbn [py_lt]. intros E. f_equal.
    assert (E' : SFltb x tend1 = true) by (cbn in E; congruence). exact (SF_lt_le_trans _ _ _ E' Ht).
  - rewrite H0. cbn [py_lt]. change (n_lt num64) with SFltb. rewrite P1, P2. auto.
  - split; [exact A|]. destruct B as [[B1 B2]|B]; [|exact B].
    rewrite H0 in B1. cbn [py_lt] in B1. change (n_lt num64) with SFltb in B1. congruence.
Qed.
Print Assumptions C33_double_precision.

Theorem C33_dates : forall K T M (init : state K) dt se tend1 tend2 d fuel1 fuel2 f1 r1 f2 r2,
  s_time init = VDate d -> (tend1 <= tend2)%Z ->
  run T M fuel1 init dt (VDate tend1) se = Ok (f1, r1) -> run T M fuel2 init dt (VDate tend2) se = Ok (f2, r2) ->
  (exists rest, items r2 = items r1 ++ rest)
  /\ ((tend1 < d)%Z /\ f1 = init
      \/ exists N1 N2, (N1 <= N2)%nat /\ trajectory T M init dt N1 f1 /\ trajectory T M init dt N2 f2).
Proof.
  intros K T M init dt se tend1 tend2 d fuel1 fuel2 f1 r1 f2 r2 H0 Ht R1 R2.
  destruct (run_extends T M init dt se (VDate tend1) (VDate tend2) fuel1 fuel2 f1 r1 f2 r2) as [A B]; auto.
  - intros [x|x|x]; try discriminate. cbn. intros E. f_equal. assert (E' : (x <? tend1)%Z = true) by congruence. lia.
  - rewrite H0. cbn. intros E. f_equal. assert (E' : (tend2 <? d)%Z = true) by congruence. lia.
  - split; [exact A|]. destruct B as [[B1 B2]|B]; [left|now right]. split; [|exact B2].
    rewrite H0 in B1. cbn in B1. assert (E' : (tend1 <? d)%Z = true) by congruence. lia.
Qed.
Print Assumptions C33_dates.
(** two runs of different length that both return *)
Example C33_nonvacuous : exists fuel f1 l1 f2 l2,
  run d1_family example_model fuel example_init (@VNum numR 7) (@VNum numR 120) (@VNum numR 10) = Ok (f1, AStateList l1)
  /\ run d1_family example_model fuel example_init (@VNum numR 7) (@VNum numR 200) (@VNum numR 10) = Ok (f2, AStateList l2).
Proof.
  destruct (C30_returns_numbers d1_family example_model example_init 100 7 120 10) as [n1 [f1 [l1 H1]]]; try reflexivity; try exact I; try lra.
  destruct (C30_returns_numbers d1_family example_model example_init 100 7 200 10) as [n2 [f2 [l2 H2]]]; try reflexivity; try exact I; try lra.
  exists (n1 + n2)%nat, f1, l1, f2, l2. split; [apply H1; lia|apply H2; lia].
Qed.

(** C34 *)
Theorem C34_mean_conserved : forall K T g, exact_on T g -> forall res rs om nt, mk_grid res rs om nt = Ok g ->
  forall (M : bmodel K) fuel init dt tend se f r, m_rhs M = None -> (1 <= m_order M)%nat ->
  s_grid init = g -> length (s_pvs init) = nspec (g_ntrunc g) -> run T M fuel init dt tend se = Ok (f, r) ->
  Forall (fun s => coef (s_pvs s) 0 = coef (s_pvs init) 0) (f :: items r).
Proof. intros K T g H res rs om nt Hg. apply (run_mean T g H (made_radius _ _ _ _ _ Hg)). Qed.
Print Assumptions C34_mean_conserved.

Theorem C34_every_step : forall K T g, exact_on T g -> forall res rs om nt, mk_grid res rs om nt = Ok g ->
  forall (M : bmodel K) init dt n s, m_rhs M = None -> (1 <= m_order M)%nat ->
  s_grid init = g -> length (s_pvs init) = nspec (g_ntrunc g) -> trajectory T M init dt n s ->
  coef (s_pvs s) 0 = coef (s_pvs init) 0.
Proof.
  intros K T g H res rs om nt Hg M init dt n s HR Ho HG HL [new HS].
  destruct (steps_mean T g H (made_radius _ _ _ _ _ Hg) M init dt n s new HR Ho HG HL HS) as [[_ [_ Q]] _]. exact Q.
Qed.
Print Assumptions C34_every_step.
Example C34_nonvacuous : exact_on d1_family (d1_grid 1 1) /\ mk_grid 90 1 1 (Some 1%Z) = Ok (d1_grid 1 1)
  /\ m_rhs example_model = None /\ (1 <= m_order example_model)%nat
  /\ s_grid example_init = d1_grid 1 1 /\ length (s_pvs example_init) = nspec (g_ntrunc (d1_grid 1 1)).
Proof. split; [apply d1_exact; lra|]. split; [apply d1_grid_ok; lra|]. repeat split; cbn; lia. Qed.

(** C35 holds if diffusion leaves the planetary vorticity alone ... *)
Theorem C35_motionless_partial : forall K T g, exact_on T g -> forall res rs om nt, mk_grid res rs om nt = Ok g ->
  forall (M : bmodel K) fuel time init dt tend se f r, m_rhs M = None ->
  (m_coeff M = 0 \/ exists bg, m_bg M = Some bg /\ to_spectral T g bg = fcor2_spectral T g) ->
  motionless T g time = Ok init -> run T M fuel init dt tend se = Ok (f, r) ->
  Forall (fun s => s_u T s = mat_of (g_nlat g) (g_nlon g) (fun _ _ => 0)
                /\ s_v T s = mat_of (g_nlat g) (g_nlon g) (fun _ _ => 0)) (f :: items r).
Proof.
  intros K T g H res rs om nt Hg M fuel time init dt tend se f r HR HN HI HX.
  apply (run_rest T g H (made_radius _ _ _ _ _ Hg) M fuel init dt tend se f r HR HN); [|exact HX].
  unfold motionless, state_init in HI. injection HI as <-. split; reflexivity.
Qed.
Print Assumptions C35_motionless_partial.

(** ... but not with plain diffusion, which spins up a solid-body rotation *)
Theorem C35_diffusion_refuted : exists init f r, motionless d1_family (d1_grid 1 (1 / 2)) (@VNum numR 0) = Ok init
  /\ run d1_family (mkModel None 1 (1 / 2) None) 2 init (@VNum numR 1) (@VNum numR 1) (@VNum numR 0) = Ok (f, r)
  /\ mget (s_u d1_family f) 1 0 = - (13 / 60).
Proof. exact motionless_refuted. Qed.
Print Assumptions C35_diffusion_refuted.
Example C35_nonvacuous : exact_on d1_family (d1_grid 1 1) /\ mk_grid 90 1 1 (Some 1%Z) = Ok (d1_grid 1 1)
  /\ to_spectral d1_family (d1_grid 1 1) (g_fcor2 (d1_grid 1 1)) = fcor2_spectral d1_family (d1_grid 1 1)
  /\ exists s, motionless (K := numR) d1_family (d1_grid 1 1) (@VNum numR 0) = Ok s.
Proof. split; [apply d1_exact; lra|]. split; [apply d1_grid_ok; lra|]. split; [reflexivity|]. unfold motionless, state_init. eauto. Qed.

(** C36 *)
Theorem C36_times : forall K T (M : bmodel K) old now nu f new, leapfrog T M old now nu = Ok (f, new) ->
  s_grid f = s_grid now /\ s_grid new = s_grid now /\ s_time f = s_time now
  /\ exists dt, py_sub (s_time now) (s_time old) = Ok dt /\ py_add (s_time now) dt = Ok (s_time new).
Proof. exact (@leapfrog_facts). Qed.
Print Assumptions C36_times.

Theorem C36_filter : forall K T (M : bmodel K) old now nu f new, leapfrog T M old now nu = Ok (f, new) ->
  length (s_pvs old) = length (s_pvs now) -> length (s_pvs new) = length (s_pvs now) ->
  length (s_pvs f) = length (s_pvs now)
  /\ forall k, (k < length (s_pvs now))%nat -> coef (s_pvs f) k =
     (RtoC (1 - 2 * nu) * coef (s_pvs now) k + RtoC nu * (coef (s_pvs old) k + coef (s_pvs new) k))%C.
Proof. exact (@filter_formula). Qed.
Print Assumptions C36_filter.

Theorem C36_no_filter : forall K T (M : bmodel K) old now f new, leapfrog T M old now 0 = Ok (f, new) ->
  length (s_pvs old) = length (s_pvs now) -> length (s_pvs new) = length (s_pvs now) -> s_pvs f = s_pvs now.
Proof. exact (@filter_zero). Qed.
Print Assumptions C36_no_filter.

Theorem C36_straight_lines : forall K T (M : bmodel K) old now nu f new, leapfrog T M old now nu = Ok (f, new) ->
  length (s_pvs old) = length (s_pvs now) -> length (s_pvs new) = length (s_pvs now) ->
  (forall k, (k < length (s_pvs now))%nat -> (coef (s_pvs now) k - coef (s_pvs old) k = coef (s_pvs new) k - coef (s_pvs now) k)%C) ->
  s_pvs f = s_pvs now.
Proof. exact (@filter_straight). Qed.
Print Assumptions C36_straight_lines.

(** without tendency and diffusion new = old, and the distance between consecutive
    states changes sign and shrinks by 1 - 2 nu *)
Theorem C36_computational_mode : forall K T (M : bmodel K) g old now nu f new,
  exact_on T g -> g_rsphere g <> 0 -> leapfrog T M old now nu = Ok (f, new) ->
  s_grid now = g -> length (s_pvs old) = nspec (g_ntrunc g) -> length (s_pvs now) = nspec (g_ntrunc g) ->
  pv_tendency_spectral T M now = Ok (repeat (RtoC 0) (nspec (g_ntrunc g))) -> m_coeff M = 0 ->
  s_pvs new = s_pvs old
  /\ forall k, (k < nspec (g_ntrunc g))%nat ->
     (coef (s_pvs new) k - coef (s_pvs f) k = RtoC (- (1 - 2 * nu)) * (coef (s_pvs now) k - coef (s_pvs old) k))%C.
Proof. exact (@computational_mode). Qed.
Print Assumptions C36_computational_mode.

(** the new state is the old one advanced by twice the step with the tendency of
    the current one, then diffused *)
Theorem C36_new_state : forall K T (M : bmodel K) old now nu f new, leapfrog T M old now nu = Ok (f, new) ->
  exists dt dts x, py_sub (s_time now) (s_time old) = Ok dt /\ to_seconds dt = Ok dts /\ pv_tendency_spectral T M now = Ok x
  /\ s_pvs new = apply_diffusion T M (s_grid now) (2 * dts) (sadd (s_pvs old) (sscale (2 * dts) x)).
Proof.
  intros K T M old now nu f new HL. unfold leapfrog in HL. do 4 inv_bind HL. injection HL as <- <-. eauto 8.
Qed.
Print Assumptions C36_new_state.
(** the hypotheses of the C36 theorems hold for a step from rest *)
Example C36_nonvacuous : exists init f new, motionless (K := numR) d1_family (d1_grid 1 1) (@VNum numR 0) = Ok init
  /\ leapfrog d1_family (mkModel None 2 0 None) init init (1 / 5) = Ok (f, new)
  /\ length (s_pvs init) = nspec (g_ntrunc (d1_grid 1 1)) /\ length (s_pvs new) = length (s_pvs init)
  /\ pv_tendency_spectral d1_family (mkModel None 2 0 None) init = Ok (repeat (RtoC 0) (nspec (g_ntrunc (d1_grid 1 1))))
  /\ exact_on d1_family (d1_grid 1 1) /\ g_rsphere (d1_grid 1 1) <> 0.
Proof.
  assert (HE : exact_on d1_family (d1_grid 1 1)) by (apply d1_exact; lra).
  unfold motionless, state_init. eexists. do 2 eexists. split; [reflexivity|]. split; [unfold leapfrog; cbn [s_time py_sub bind to_seconds pv_tendency_spectral m_rhs py_add]; reflexivity|].
  split; [reflexivity|]. split; [reflexivity|]. split; [|split; [exact HE|cbn; lra]].
  apply (tend_zero d1_family (d1_grid 1 1) HE); [reflexivity|]. split; reflexivity.
Qed.

(** C88: one step in terms of coefficients, for models without diffusion background *)
Theorem C88_tendency : forall K T (M : bmodel K) g (s : state K) x, exact_on T g -> s_grid s = g -> pv_tendency_spectral T M s = Ok x ->
  let flux := snd (sh_getvrtdivspec (T (g_nlat g) (g_nlon g) (g_rsphere g)) (mmul (s_pv T s) (s_u T s)) (mmul (s_pv T s) (s_v T s)) (g_ntrunc g)) in
  match m_rhs M with
  | None => length x = nspec (g_ntrunc g) /\ forall k, (k < nspec (g_ntrunc g))%nat -> coef x k = (- coef flux k)%C
  | Some f => exists F, f s = Ok (FMat F) /\ (length (to_spectral T g F) = nspec (g_ntrunc g) ->
      length x = nspec (g_ntrunc g)
      /\ forall k, (k < nspec (g_ntrunc g))%nat -> coef x k = (- coef flux k + coef (to_spectral T g F) k)%C)
  end.
Proof. exact (@tendency_coef). Qed.
Print Assumptions C88_tendency.

Theorem C88_euler : forall res rs om nt g, mk_grid res rs om nt = Ok g ->
  forall K T (M : bmodel K) (now new : state K) dt, s_grid now = g -> m_bg M = None -> euler T M now dt = Ok new ->
  exists h x, to_seconds dt = Ok h /\ pv_tendency_spectral T M now = Ok x
  /\ s_grid new = g /\ py_add (s_time now) dt = Ok (s_time new)
  /\ (0 <= h * m_coeff M -> length (s_pvs now) = nspec (g_ntrunc g) -> length x = nspec (g_ntrunc g) ->
      length (s_pvs new) = nspec (g_ntrunc g)
      /\ forall k, (k < nspec (g_ntrunc g))%nat ->
        (RtoC (1 + h * m_coeff M * eigenvalue rs (degree (g_ntrunc g) k) ^ m_order M) * coef (s_pvs new) k
         = coef (s_pvs now) k + RtoC h * coef x k)%C).
Proof. exact euler_coef. Qed.
Print Assumptions C88_euler.

Theorem C88_leapfrog : forall res rs om nt g, mk_grid res rs om nt = Ok g ->
  forall K T (M : bmodel K) (old now f new : state K) nu, s_grid now = g -> m_bg M = None -> leapfrog T M old now nu = Ok (f, new) ->
  exists dt h x, py_sub (s_time now) (s_time old) = Ok dt /\ to_seconds dt = Ok h /\ pv_tendency_spectral T M now = Ok x
  /\ (0 <= h * m_coeff M -> length (s_pvs old) = nspec (g_ntrunc g) -> length x = nspec (g_ntrunc g) ->
      length (s_pvs new) = nspec (g_ntrunc g)
      /\ forall k, (k < nspec (g_ntrunc g))%nat ->
        (RtoC (1 + 2 * h * m_coeff M * eigenvalue rs (degree (g_ntrunc g) k) ^ m_order M) * coef (s_pvs new) k
         = coef (s_pvs old) k + RtoC (2 * h) * coef x k)%C).
Proof. exact leapfrog_coef. Qed.
Print Assumptions C88_leapfrog.
Example C88_nonvacuous : mk_grid 90 1 1 (Some 1%Z) = Ok (d1_grid 1 1) /\ exact_on d1_family (d1_grid 1 1)
  /\ s_grid example_init = d1_grid 1 1 /\ m_bg example_model = None
  /\ (exists new, euler d1_family example_model example_init (@VNum numR 7) = Ok new)
  /\ (exists f new, leapfrog d1_family example_model example_init example_init (1 / 5) = Ok (f, new)).
Proof.
  split; [apply d1_grid_ok; lra|]. split; [apply d1_exact; lra|]. do 2 (split; [reflexivity|]).
  split; [eexists|do 2 eexists]; reflexivity.
Qed.

(** C37 *)
Theorem C37_statelist_partial : forall K T (M : bmodel K) fuel init dt tend se f r,
  run T M fuel init dt tend se = Ok (f, r) -> py_lt tend (s_time init) = Ok false -> exists l, r = AStateList (init :: l).
Proof. intros K T M fuel init dt tend se f r HR. apply (run_second T M fuel init dt tend se f r HR). Qed.
Print Assumptions C37_statelist_partial.

(** a plain list is returned for tend before the initial time *)
Theorem C37_past_refuted : forall K T (M : bmodel K) fuel init dt tend se, py_lt tend (s_time init) = Ok true ->
  exists f l, run T M fuel init dt tend se = Ok (f, PlainList l).
Proof. intros K T M fuel init dt tend se H. rewrite (run_past T M) by exact H. eauto. Qed.
Print Assumptions C37_past_refuted.
Example C37_nonvacuous : py_lt (@VNum numR 99) (s_time example_init) = Ok true /\ py_lt (@VNum numR 101) (s_time example_init) = Ok false.
Proof. split; cbn; f_equal; [apply Rltb_true|apply Rltb_false]; lra. Qed.

(** C38 *)
Theorem C38_same_fields : forall T (A B : bmodel numR), same_forcing A B ->
  forall fuel init init' dt dt' tend tend' (se : R),
  same_fields init init' -> same_interval dt dt' -> same_unit tend tend' -> se <= 0 ->
  same_result (run T A fuel init dt tend (@VNum numR se)) (run T B fuel init' dt' tend' (@VNum numR se)).
Proof. exact rel_run. Qed.
Print Assumptions C38_same_fields.

Theorem C38_mixing_tend : forall T (M : bmodel numR) fuel init dt se (d : Z) (t : R),
  (s_time init = VDate d -> run T M fuel init dt (@VNum numR t) se = Err TypeError)
  /\ (s_time init = @VNum numR t -> run T M fuel init dt (VDate d) se = Err TypeError).
Proof. exact mixed_tend. Qed.
Print Assumptions C38_mixing_tend.

Theorem C38_mixing_dt : forall T (M : bmodel numR) fuel init se, forcing_ok M ->
  (forall (d tend : Z) (x : R), s_time init = VDate d -> (d <= tend)%Z ->
     run T M fuel init (@VNum numR x) (VDate tend) se = Err TypeError)
  /\ (forall (t tend : R) us, s_time init = @VNum numR t -> t <= tend ->
     run T M fuel init (VDelta us) (@VNum numR tend) se = Err TypeError).
Proof.
  intros T M fuel init se HF. split; intros.
  - now apply (mixed_dt_date T M fuel init se d).
  - now apply (mixed_dt_num T M fuel init se t).
Qed.
Print Assumptions C38_mixing_dt.

(** save_every only exists for numeric times (documented): with datetime it raises *)
Theorem C38_save_every_datetime : forall T (M : bmodel numR) fuel init (d us tend : Z) (s : R), forcing_ok M ->
  s_time init = VDate d -> (d < tend)%Z -> 0 < s ->
  run T M (S fuel) init (VDelta us) (VDate tend) (@VNum numR s) = Err TypeError.
Proof. exact mixed_save. Qed.
Print Assumptions C38_save_every_datetime.
Example C38_nonvacuous : same_forcing example_model example_model
  /\ same_fields example_date (mkState (d1_grid 1 1) (@VNum numR (IZR 100 / 1000000)) [RtoC 0; RtoC 5; Ci])
  /\ same_interval (VDelta 3000000) (@VNum numR (IZR 3000000 / 1000000))
  /\ same_unit (VDate 20000000) (@VNum numR (IZR 20000000 / 1000000)).
Proof. split; [now repeat split|]. split; [repeat split; constructor|]. split; constructor. Qed.
