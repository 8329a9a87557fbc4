(** C107, C108: integrations with times in double precision. *)
From Coq Require Export String.
From Coq Require Import Reals ZArith Lia Lra.
From Verif Require Import Base Model_Grid Model_Time Model_State Model_Run Spec_Instance Spec_Run Spec_Float Spec_FloatRun
  Proofs_Base Proofs_Run Proofs_Times Proofs_Float Proofs_FloatRun Props_Run.
From Coquelicot Require Import Complex.
From Coq Require Import List.
Import ListNotations.
Open Scope R_scope.

(** C107: if all times are integer multiples of a power of two (for example integers)
    that fit into 53 bits, an integration in double precision gives the same states,
    times and exceptions as exact arithmetic *)
Theorem C107_exact : forall T (M : bmodel num64) (M' : bmodel numR) fuel init init' e t0 d te sv xd xe xs,
  same_model M M' -> same_state init init' -> (-1074 <= e <= 970)%Z ->
  s_time init' = @VNum numR (scaled e t0) -> denotes xd (scaled e d) -> denotes xe (scaled e te) -> denotes xs (scaled e sv) ->
  (0 < d <= 2 ^ 53)%Z -> (- 2 ^ 53 <= t0)%Z -> (te + 2 * d <= 2 ^ 53)%Z -> (te + d + sv <= 2 ^ 53)%Z ->
  same_outcome (run T M fuel init (@VNum num64 xd) (@VNum num64 xe) (@VNum num64 xs))
               (run T M' fuel init' (@VNum numR (scaled e d)) (@VNum numR (scaled e te)) (@VNum numR (scaled e sv))).
Proof. intros. eapply run_same; eauto; lia. Qed.
Print Assumptions C107_exact.

(** ... hence it ends *)
Theorem C107_terminates : forall T (M : bmodel num64) (M' : bmodel numR) init init' e t0 d te sv xd xe xs,
  same_model M M' -> python_forcing M' -> same_state init init' -> (-1074 <= e <= 970)%Z ->
  s_time init' = @VNum numR (scaled e t0) -> denotes xd (scaled e d) -> denotes xe (scaled e te) -> denotes xs (scaled e sv) ->
  (0 < d <= 2 ^ 53)%Z -> (- 2 ^ 53 <= t0)%Z -> (te + 2 * d <= 2 ^ 53)%Z -> (te + d + sv <= 2 ^ 53)%Z ->
  exists N, forall fuel, (N < fuel)%nat -> run T M fuel init (@VNum num64 xd) (@VNum num64 xe) (@VNum num64 xs) <> Err OutOfFuel.
Proof.
  intros T M M' init init' e t0 d te sv xd xe xs HM HP HS He H0 Xd Xe Xs Hd B0 B1 B2.
  assert (P : 0 < scaled e d). { replace 0 with (scaled e 0) by (unfold scaled; lra). apply scaled_lt. lia. }
  destruct (C31_terminates_numbers T M' init' (scaled e t0) (scaled e d) (scaled e te) (@VNum numR (scaled e sv)) HP H0 P) as [N HN].
  exists N. intros fuel L Q. specialize (HN fuel L).
  pose proof (C107_exact T M M' fuel init init' e t0 d te sv xd xe xs HM HS He H0 Xd Xe Xs Hd B0 B1 B2) as S. rewrite Q in S.
  unfold same_outcome in S. destruct (run T M' fuel init' _ _ _) as [[f r]|ex]; [contradiction|]. congruence.
Qed.
Print Assumptions C107_terminates.

(** integer times are multiples of 2^0 *)
Lemma denotes_integer z : (Z.abs z <= 2 ^ 53)%Z -> denotes (b64_of_Z z) (scaled 0 z).
Proof.
  intros H. apply denotes_B. destruct (of_Z_value z H) as (b & E & V & F). exists b. split; [exact E|]. split; [exact F|]. rewrite V. unfold scaled. cbn. lra.
Qed.
(** six-hourly output of a forced ten-day integration with a time step of 600 s *)
Definition example_forced64 : bmodel num64 := mkModel (Some (fun s => Ok (FMat (s_pv d1_family s)))) 2 1 None.
Definition example_init64 : state num64 := mkState (d1_grid 1 1) (@VNum num64 (b64_of_Z 100)) [RtoC 0; RtoC 5; Ci].
Example C107_nonvacuous : same_model example_forced64 example_forced /\ python_forcing example_forced
  /\ same_state example_init64 example_init /\ s_time example_init = @VNum numR (scaled 0 100)
  /\ denotes (b64_of_Z 600) (scaled 0 600) /\ denotes (b64_of_Z 864000) (scaled 0 864000) /\ denotes (b64_of_Z 21600) (scaled 0 21600)
  /\ (864000 + 2 * 600 <= 2 ^ 53)%Z /\ (864000 + 600 + 21600 <= 2 ^ 53)%Z.
Proof.
  split. { repeat split. intros [g t p] [g' t' p'] (Eg & _ & Ep). cbn in Eg, Ep. subst. reflexivity. }
  split; [intros s; discriminate|].
  assert (E : scaled 0 100 = 100) by (unfold scaled; cbn; lra).
  split. { split; [reflexivity|]. split; [|reflexivity]. cbn [same_time s_time example_init64 example_init]. rewrite <- E. apply denotes_integer. lia. }
  split; [now rewrite E|]. split; [apply denotes_integer; lia|]. split; [apply denotes_integer; lia|]. split; [apply denotes_integer; lia|]. lia.
Qed.

(** C108: with any time step, the step length drifts because it is recomputed from
    rounded times, but stays close to dt.  S bounds the number of steps and the initial
    time in units of the time step. *)
Theorem C108_drift : forall T (M : bmodel num64) init x0 xd t0 dt S n s,
  s_time init = @VNum num64 x0 -> denotes x0 t0 -> denotes xd dt -> 0 < dt ->
  S <= 2 ^ 24 -> S * dt <= 2 ^ 900 -> Rabs t0 <= S * dt -> INR n + 2 <= S ->
  trajectory T M init (@VNum num64 xd) n s ->
  exists x t, s_time s = @VNum num64 x /\ denotes x t
    /\ Rabs (t - (t0 + INR n * dt)) <= INR n ^ 2 * S * dt / 2 ^ 49.
Proof.
  intros T M init x0 xd t0 dt S n s H0 D0 Dd Pd HS HM Ht Hn [new H].
  destruct (ticks_time x0 xd t0 dt S D0 Dd Pd HS HM Ht n Hn) as (a & Ha & E & _).
  exists (fst (ticks x0 xd n)), a. split; [exact (proj1 (steps_ticks _ _ _ _ _ _ _ _ H0 H))|]. now split.
Qed.
Print Assumptions C108_drift.

(** the length of step n *)
Theorem C108_step : forall T (M : bmodel num64) init x0 xd t0 dt S n s s',
  s_time init = @VNum num64 x0 -> denotes x0 t0 -> denotes xd dt -> 0 < dt ->
  S <= 2 ^ 24 -> S * dt <= 2 ^ 900 -> Rabs t0 <= S * dt -> INR n + 2 <= S ->
  steps T M init (@VNum num64 xd) n = Ok (s, s') ->
  exists x t x' t', s_time s = @VNum num64 x /\ denotes x t /\ s_time s' = @VNum num64 x' /\ denotes x' t'
    /\ Rabs (t' - t - dt) <= (INR n + 1) * S * dt / 2 ^ 49 /\ dt / 2 <= t' - t <= 3 / 2 * dt.
Proof.
  intros T M init x0 xd t0 dt S n s s' H0 D0 Dd Pd HS HM Ht Hn H.
  destruct (ticks_step x0 xd t0 dt S D0 Dd Pd HS HM Ht n Hn) as (a & b & Ha & Hb & E). destruct (steps_ticks _ _ _ _ _ _ _ _ H0 H) as [T1 T2].
  exists (fst (ticks x0 xd n)), a, (snd (ticks x0 xd n)), b. auto.
Qed.
Print Assumptions C108_step.

(** an integration whose initial and final time are at most 2^21 time steps from zero ends *)
Theorem C108_terminates : forall T (M : bmodel num64) init x0 xd xe t0 dt te se S,
  python_forcing M -> s_time init = @VNum num64 x0 -> denotes x0 t0 -> denotes xd dt -> denotes xe te -> 0 < dt ->
  1 <= S <= 2 ^ 21 -> S * dt <= 2 ^ 800 -> Rabs t0 <= S * dt -> Rabs te <= S * dt ->
  exists N, forall fuel, (N < fuel)%nat -> run T M fuel init (@VNum num64 xd) (@VNum num64 xe) se <> Err OutOfFuel.
Proof.
  intros T M init x0 xd xe t0 dt te se S HP H0 D0 Dd De Pd HS HM Ht He.
  destruct (reaches x0 xd t0 dt te S D0 Dd Pd HS HM Ht He) as (_ & _ & _ & n & a & _ & Ha & L).
  exists n. apply run_halts; [exact HP|]. intros sm [new Hs]. rewrite (proj1 (steps_ticks _ _ _ _ _ _ _ _ H0 Hs)).
  cbn [py_lt n_lt num64]. rewrite (denotes_lt _ _ _ _ Ha De). assert (Rltb a te = false) as -> by now apply Rltb_false. discriminate.
Qed.
Print Assumptions C108_terminates.

(** ... less than one and a half steps after the requested time *)
Theorem C108_final_time : forall T (M : bmodel num64) init x0 xd xe t0 dt te se S fuel f l,
  s_time init = @VNum num64 x0 -> denotes x0 t0 -> denotes xd dt -> denotes xe te -> 0 < dt ->
  1 <= S <= 2 ^ 21 -> S * dt <= 2 ^ 800 -> Rabs t0 <= S * dt -> Rabs te <= S * dt ->
  run T M fuel init (@VNum num64 xd) (@VNum num64 xe) se = Ok (f, l) -> t0 <= te ->
  exists x t, s_time f = @VNum num64 x /\ denotes x t /\ te <= t < te + 3 / 2 * dt.
Proof.
  intros T M init x0 xd xe t0 dt te se S fuel f l H0 D0 Dd De Pd HS HM Ht He R L0.
  destruct (reaches x0 xd t0 dt te S D0 Dd Pd HS HM Ht He) as (A1 & A2 & A3 & n & a & Hn & Ha & L).
  destruct (run_sound _ _ _ _ _ _ _ _ _ R) as [[X _]|[_ [N [HT [HF [HB _]]]]]].
  { exfalso. rewrite H0 in X. cbn [py_lt n_lt num64] in X. rewrite (denotes_lt _ _ _ _ De D0) in X.
    assert (Rltb te t0 = false) as Y by now apply Rltb_false. rewrite Y in X. discriminate. }
  destruct HT as [new HT].
  assert (LN : (N <= n)%nat).
  { destruct (Nat.le_gt_cases N n) as [G|G]; [exact G|]. exfalso. destruct (steps_le _ _ _ _ _ n _ HT) as [[s s'] Hs]; [lia|].
    specialize (HB n s G (ex_intro _ s' Hs)). rewrite (proj1 (steps_ticks _ _ _ _ _ _ _ _ H0 Hs)) in HB. cbn [py_lt n_lt num64] in HB.
    rewrite (denotes_lt _ _ _ _ Ha De) in HB. assert (Rltb a te = false) as Y by now apply Rltb_false. rewrite Y in HB. discriminate. }
  assert (LR : INR N <= INR n) by now apply le_INR.
  destruct (ticks_time x0 xd t0 dt (8 * S) D0 Dd Pd A1 A2 A3 N) as (t & Dt & _); [lra|].
  rewrite (proj1 (steps_ticks _ _ _ _ _ _ _ _ H0 HT)) in *. exists (fst (ticks x0 xd N)), t. split; [reflexivity|]. split; [exact Dt|].
  cbn [py_lt n_lt num64] in HF. rewrite (denotes_lt _ _ _ _ Dt De) in HF.
  assert (Lt : te <= t). { destruct (Rltb t te) eqn:C; [discriminate|]. now apply Rltb_false in C. }
  split; [exact Lt|]. destruct N as [|N].
  - cbn [ticks fst] in Dt. rewrite (denotes_fun _ _ _ Dt D0). lra.
  - rewrite S_INR in LR. destruct (ticks_step x0 xd t0 dt (8 * S) D0 Dd Pd A1 A2 A3 N) as (a' & b & Da & Db & _ & [_ Q]); [lra|].
    cbn [ticks fst] in Dt. rewrite (denotes_fun _ _ _ Dt Db) in *.
    destruct (steps_le _ _ _ _ _ N _ HT) as [[s s'] Hs]; [lia|]. specialize (HB N s ltac:(lia) (ex_intro _ s' Hs)).
    rewrite (proj1 (steps_ticks _ _ _ _ _ _ _ _ H0 Hs)) in HB. cbn [py_lt n_lt num64] in HB. rewrite (denotes_lt _ _ _ _ Da De) in HB.
    assert (C : a' < te) by (apply Rltb_true; congruence). lra.
Qed.
Print Assumptions C108_final_time.

Definition tenth : b64 := S754_finite false 7205759403792794 (-56).
Lemma denotes_tenth : denotes tenth (7205759403792794 / 72057594037927936).
Proof.
  split; [reflexivity|]. split; [exact I|]. unfold tenth, float_value. cbn [powerRZ]. rewrite (pow_IZR 2).
  change (2 ^ Z.of_nat (Pos.to_nat 56))%Z with 72057594037927936%Z. reflexivity.
Qed.
Lemma denotes_zero : denotes (S754_zero false) 0.
Proof. split; [reflexivity|]. split; [exact I|reflexivity]. Qed.
(** a thousand time units with time step 0.1 *)
Example C108_nonvacuous : denotes (S754_zero false) 0 /\ denotes tenth (7205759403792794 / 72057594037927936)
  /\ denotes (b64_of_Z 1000) (scaled 0 1000) /\ 1 <= 16384 <= 2 ^ 21 /\ 16384 * (7205759403792794 / 72057594037927936) <= 2 ^ 800
  /\ Rabs 0 <= 16384 * (7205759403792794 / 72057594037927936) /\ Rabs (scaled 0 1000) <= 16384 * (7205759403792794 / 72057594037927936)
  /\ INR 2 + 2 <= 16384 /\ 2 * 16384 <= 2 ^ 24.
Proof.
  split; [exact denotes_zero|]. split; [exact denotes_tenth|]. split; [apply denotes_integer; lia|].
  assert (2 ^ 800 >= 2 ^ 24). { apply Rle_ge. apply Rle_pow; [lra|lia]. }
  assert (2 ^ 21 = 2097152) by (cbn; lra). assert (2 ^ 24 = 16777216) by (cbn; lra).
  assert (scaled 0 1000 = 1000) as -> by (unfold scaled; cbn; lra). rewrite Rabs_R0, (Rabs_pos_eq 1000) by lra. cbn [INR]. repeat split; lra.
Qed.

(** The steps do not all have the length dt: with time step 0.1 from time 0 the state
    after four steps is at 0.4000000000000001, not at 4*0.1 = 0.4, and the step in
    between is 0.10000000000000003 *)
Theorem C108_constant_step_refuted : forall T (M : bmodel num64) init, forcing_ok M -> s_time init = @VNum num64 (S754_zero false) ->
  (exists s s' x x', steps T M init (@VNum num64 tenth) 2 = Ok (s, s') /\ s_time s = @VNum num64 x /\ s_time s' = @VNum num64 x'
     /\ float_value tenth < float_value x' - float_value x)
  /\ exists s x, trajectory T M init (@VNum num64 tenth) 4 s /\ s_time s = @VNum num64 x
     /\ float_value (b64_mul (b64_of_Z 4) tenth) < float_value x.
Proof.
  intros T M init HF H0.
  assert (OK : forall n, exists p, steps T M init (@VNum num64 tenth) n = Ok p).
  { induction n as [|n [[s s'] IH]].
    - cbn. unfold euler. cbn [to_seconds bind]. destruct (tendency_ok T M init HF) as [x ->]. cbn [bind]. rewrite H0. cbn. eauto.
    - destruct (steps_ticks _ _ _ _ _ _ _ _ H0 IH) as [T1 T2]. cbn [steps]. rewrite IH. cbn [bind fst snd]. unfold leapfrog. rewrite T1, T2.
      cbn [py_sub bind to_seconds]. destruct (tendency_ok T M s' HF) as [x ->]. cbn [bind py_add]. eauto. }
  split.
  - destruct (OK 2%nat) as [[s s'] Hs]. destruct (steps_ticks _ _ _ _ _ _ _ _ H0 Hs) as [T1 T2]. do 4 eexists. split; [exact Hs|]. split; [exact T1|]. split; [exact T2|].
    assert (ticks (S754_zero false) tenth 2 = (S754_finite false 7205759403792794 (-55), S754_finite false 5404319552844596 (-54))) as -> by (vm_compute; reflexivity).
    unfold tenth, float_value. cbn [fst snd powerRZ]. rewrite !(pow_IZR 2).
    change (2 ^ Z.of_nat (Pos.to_nat 56))%Z with 72057594037927936%Z. change (2 ^ Z.of_nat (Pos.to_nat 55))%Z with 36028797018963968%Z.
    change (2 ^ Z.of_nat (Pos.to_nat 54))%Z with 18014398509481984%Z. lra.
  - destruct (OK 4%nat) as [[s s'] Hs]. destruct (steps_ticks _ _ _ _ _ _ _ _ H0 Hs) as [T1 T2]. do 2 eexists. split; [exists s'; exact Hs|]. split; [exact T1|].
    assert (fst (ticks (S754_zero false) tenth 4) = S754_finite false 7205759403792795 (-54)) as -> by (vm_compute; reflexivity).
    assert (b64_mul (b64_of_Z 4) tenth = S754_finite false 7205759403792794 (-54)) as -> by (vm_compute; reflexivity).
    unfold float_value. apply Rmult_lt_compat_r; [apply powerRZ_lt; lra|]. apply IZR_lt. lia.
Qed.
Print Assumptions C108_constant_step_refuted.
