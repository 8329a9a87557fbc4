(** Integrations: stopping, termination, saving, time units. *)
From Coq Require Export String.
From Verif Require Import Base Model_Grid Model_Time Model_Spectral Model_State Model_Run.
From Verif Require Import Spec_Grid Spec_Spectral Spec_State Spec_Instance Spec_Run.
From Verif Require Import Proofs_Base Proofs_Grid Proofs_Spectral Proofs_Instance Proofs_State Proofs_Run.
From Coquelicot Require Import Coquelicot.
From Coq Require Import List Lia Lra.
Open Scope R_scope.

Lemma numeq (a b : R) : a = b -> @VNum numR a = @VNum numR b.
Proof. now intros ->. Qed.
Ltac numring := match goal with |- @eq _ ?a ?b => change (@eq R a b); rewrite ?S_INR; cbn [INR]; ring end.
(** the two clocks *)
Lemma clock_R (init : state numR) (t0 dt : R) : s_time init = @VNum numR t0 ->
  clock init (@VNum numR dt) (fun n => @VNum numR (t0 + INR n * dt)).
Proof.
  intros H. split; [rewrite H; apply numeq; numring|]. split; [now exists dt|].
  split; intros n; cbn -[INR]; apply f_equal, numeq; numring.
Qed.
Lemma clock_date {K} (init : state K) d us : s_time init = VDate d ->
  clock init (VDelta us) (fun n => VDate (d + Z.of_nat n * us)).
Proof.
  intros H. split; [rewrite H; f_equal; lia|]. split; [now exists (IZR us / 1000000)|]. split; intros n; cbn -[Z.of_nat]; do 2 f_equal; lia.
Qed.

Lemma steps_reach t0 dt tend : 0 < dt -> t0 <= tend ->
  exists N, tend <= t0 + INR N * dt /\ forall m, (m < N)%nat -> t0 + INR m * dt < tend.
Proof.
  intros Hd H.
  assert (E : exists N, tend <= t0 + INR N * dt).
  { destruct (nfloor_ex ((tend - t0) / dt)) as [n [_ Hn]]; [apply Rdiv_le_0_compat; lra|]. exists (S n).
    apply Rlt_le in Hn. apply Rle_div_l in Hn; [|exact Hd]. rewrite S_INR. lra. }
  destruct E as [N HN].
  destruct (dec_inh_nat_subset_has_unique_least_element (fun n => tend <= t0 + INR n * dt)) as [M [[H1 H2] _]].
  - intros n. destruct (Rle_dec tend (t0 + INR n * dt)); [now left|now right].
  - now exists N.
  - exists M. split; [exact H1|]. intros m Hm. destruct (Rlt_dec (t0 + INR m * dt) tend); [assumption|].
    specialize (H2 m ltac:(lra)). lia.
Qed.
Lemma steps_reach_Z d us tend : (0 < us)%Z -> (d <= tend)%Z ->
  exists N, (tend <= d + Z.of_nat N * us)%Z /\ forall m, (m < N)%nat -> (d + Z.of_nat m * us < tend)%Z.
Proof.
  intros Hd H. destruct (steps_reach (IZR d) (IZR us) (IZR tend)) as [N [H1 H2]]; [now apply IZR_lt|now apply IZR_le|].
  exists N. split.
  - apply le_IZR. now rewrite plus_IZR, mult_IZR, <- INR_IZR_INZ.
  - intros m Hm. apply lt_IZR. rewrite plus_IZR, mult_IZR, <- INR_IZR_INZ. auto.
Qed.

Lemma py_lt_R (a b : R) : py_lt (@VNum numR a) (@VNum numR b) = Ok (Rltb a b).
Proof. reflexivity. Qed.

Section Reals.
Context (T : sphfam) (M : bmodel numR).
Notation num x := (@VNum numR x).

(** C30 *)
Lemma run_R_sound fuel init (t0 dt tend : R) se f r : s_time init = num t0 ->
  run T M fuel init (num dt) (num tend) se = Ok (f, r) -> t0 <= tend ->
  exists N, trajectory T M init (num dt) N f /\ s_time f = num (t0 + INR N * dt)
    /\ tend <= t0 + INR N * dt /\ forall m, (m < N)%nat -> t0 + INR m * dt < tend.
Proof.
  intros H0 HR Ht. pose proof (clock_R init t0 dt H0) as HC.
  destruct (run_sound _ _ _ _ _ _ _ _ _ HR) as [[X _]|[_ [N [HT [HF [HB _]]]]]].
  { rewrite H0, py_lt_R in X. assert (X' : Rltb tend t0 = true) by congruence. apply Rltb_true in X'. lra. }
  exists N. split; [exact HT|]. pose proof (clock_traj _ _ _ _ _ HC _ _ HT) as ET. split; [exact ET|].
  rewrite ET, py_lt_R in HF. assert (X : Rltb (t0 + INR N * dt) tend = false) by congruence. apply Rltb_false in X.
  split; [lra|]. intros m Hm. destruct HT as [new HT].
  destruct (steps_le _ _ _ _ _ m _ HT ltac:(lia)) as [[sm nm] Hsm].
  specialize (HB m sm Hm (ex_intro _ nm Hsm)). rewrite (clock_traj _ _ _ _ _ HC m sm (ex_intro _ nm Hsm)), py_lt_R in HB.
  apply Rltb_true. congruence.
Qed.

Lemma run_past {K} (M' : bmodel K) fuel init dt tend se : py_lt tend (s_time init) = Ok true ->
  run T M' fuel init dt tend se = Ok (init, PlainList (init :: nil)).
Proof. unfold run. now intros ->. Qed.

Lemma saves_R (init : state numR) (t0 dt se : R) : s_time init = num t0 ->
  (py_lt (num 0) (num se) = Ok false
   \/ py_lt (num 0) (num se) = Ok true
      /\ exists P : pyval numR -> Prop, P (num se) /\ forall x, P x -> (exists y, py_add x (num se) = Ok y /\ P y)
          /\ forall m, exists b, py_le x (num (t0 + INR m * dt)) = Ok b).
Proof.
  intros H0. rewrite py_lt_R. destruct (Rltb 0 se); [right|now left]. split; [reflexivity|].
  exists (fun v => exists x, v = num x). split; [eauto|]. intros x [y ->]. cbn. split; [eauto|]. eauto.
Qed.

Lemma run_R_ok init (t0 dt tend se : R) : forcing_ok M -> s_time init = num t0 -> 0 < dt -> t0 <= tend ->
  exists N, (forall m, (m < N)%nat -> t0 + INR m * dt < tend) /\ tend <= t0 + INR N * dt
  /\ forall fuel, (N < fuel)%nat ->
     run T M fuel init (num dt) (num tend) (num se)
     = Ok (at_step T M init (num dt) N, AStateList (init :: map (at_step T M init (num dt)) (saved T M init (num dt) (num se) 0 N (num se)))).
Proof.
  intros HF H0 Hd Ht. destruct (steps_reach t0 dt tend Hd Ht) as [N [H1 H2]]. exists N. split; [exact H2|]. split; [exact H1|].
  intros fuel L. apply (run_ok _ _ _ _ _ (clock_R init t0 dt H0)); auto.
  - rewrite py_lt_R. f_equal. apply Rltb_false. cbn [INR]. lra.
  - intros m Hm. rewrite py_lt_R. f_equal. apply Rltb_true. auto.
  - rewrite py_lt_R. f_equal. apply Rltb_false. lra.
  - now apply saves_R with (init := init).
Qed.

(** C31 *)
Lemma run_R_halts init (t0 dt tend : R) se : python_forcing M -> s_time init = num t0 -> 0 < dt ->
  exists N, forall fuel, (N < fuel)%nat -> run T M fuel init (num dt) (num tend) se <> Err OutOfFuel.
Proof.
  intros HP H0 Hd. destruct (Rle_dec t0 tend) as [Ht|Ht].
  - destruct (steps_reach t0 dt tend Hd Ht) as [N [H1 _]]. exists N. apply run_halts; [exact HP|].
    intros sm Hs. rewrite (clock_traj _ _ _ _ _ (clock_R init t0 dt H0) _ _ Hs). rewrite py_lt_R. intros X.
    assert (Y : Rltb (t0 + INR N * dt) tend = true) by congruence. apply Rltb_true in Y. lra.
  - exists 0%nat. intros fuel _. rewrite run_past; [discriminate|]. rewrite H0, py_lt_R. f_equal. apply Rltb_true. lra.
Qed.

Lemma loop_R_diverges init (t0 dt tend se : R) : forcing_ok M -> s_time init = num t0 -> dt <= 0 -> t0 < tend ->
  forall fuel n s new states ts, steps T M init (num dt) n = Ok (s, new) ->
  run_loop T M fuel (num tend) (num se) s new states (num ts) = Err OutOfFuel.
Proof.
  intros HF H0 Hd Ht. pose proof (clock_R init t0 dt H0) as HC.
  induction fuel as [|fuel IH]; intros n s new states ts HS; [reflexivity|]. cbn [run_loop].
  destruct (clock_times _ _ _ _ _ HC _ _ _ HS) as [T1 _].
  rewrite T1, py_lt_R. replace (Rltb (t0 + INR n * dt) tend) with true.
  2:{ symmetry. apply Rltb_true. pose proof (pos_INR n). nra. }
  cbn [bind]. destruct (clock_ok T M init (num dt) _ HC (S n) HF) as [[s1 new1] HS1].
  pose proof HS1 as HS2. apply steps_prev in HS2. destruct HS2 as [q [Hq HL]].
  rewrite Hq in HS. injection HS as ->. cbn [fst snd] in HL. rewrite HL. cbn [bind].
  rewrite py_lt_R. destruct (Rltb (n_zero numR) se); cbn [bind]; [|now apply (IH (S n))].
  destruct (clock_times _ _ _ _ _ HC _ _ _ HS1) as [T2 _]. rewrite T2. cbn [py_le bind].
  destruct (n_le numR ts _); cbn [bind py_add]; now apply (IH (S n)).
Qed.
Lemma run_R_diverges init (t0 dt tend se : R) : forcing_ok M -> s_time init = num t0 -> dt <= 0 -> t0 < tend ->
  forall fuel, run T M fuel init (num dt) (num tend) (num se) = Err OutOfFuel.
Proof.
  intros HF H0 Hd Ht fuel. unfold run. rewrite H0, py_lt_R. replace (Rltb tend t0) with false.
  2:{ symmetry. apply Rltb_false. lra. }
  cbn [bind]. destruct (clock_ok T M init (num dt) _ (clock_R init t0 dt H0) 0 HF) as [[s e] HE].
  pose proof HE as HE0. cbn [Spec_Run.steps] in HE0. inv_bind HE0. injection HE0 as <- <-. cbn [bind].
  now rewrite (loop_R_diverges init t0 dt tend se HF H0 Hd Ht fuel 0 init a (init :: nil) se HE).
Qed.
End Reals.

Section Dates.
Context {K : numtype} (T : sphfam) (M : bmodel K).
Lemma run_date_sound fuel init d us tend se f r : s_time init = VDate d ->
  run T M fuel init (VDelta us) (VDate tend) se = Ok (f, r) -> (d <= tend)%Z ->
  exists N, trajectory T M init (VDelta us) N f /\ s_time f = VDate (d + Z.of_nat N * us)
    /\ (tend <= d + Z.of_nat N * us)%Z /\ forall m, (m < N)%nat -> (d + Z.of_nat m * us < tend)%Z.
Proof.
  intros H0 HR Ht. pose proof (clock_date init d us H0) as HC.
  destruct (run_sound _ _ _ _ _ _ _ _ _ HR) as [[X _]|[_ [N [HT [HF [HB _]]]]]].
  { rewrite H0 in X. cbn in X. assert (X' : (tend <? d)%Z = true) by congruence. lia. }
  exists N. split; [exact HT|]. pose proof (clock_traj _ _ _ _ _ HC _ _ HT) as ET. split; [exact ET|].
  rewrite ET in HF. cbn in HF. assert (X : (d + Z.of_nat N * us <? tend)%Z = false) by congruence.
  split; [lia|]. intros m Hm. destruct HT as [new HT].
  destruct (steps_le _ _ _ _ _ m _ HT ltac:(lia)) as [[sm nm] Hsm].
  specialize (HB m sm Hm (ex_intro _ nm Hsm)). rewrite (clock_traj _ _ _ _ _ HC m sm (ex_intro _ nm Hsm)) in HB.
  cbn in HB. assert (Y : (d + Z.of_nat m * us <? tend)%Z = true) by congruence. lia.
Qed.
Lemma run_date_ok init d us tend se : forcing_ok M -> s_time init = VDate d -> (0 < us)%Z -> (d <= tend)%Z ->
  py_lt (VNum (n_zero K)) se = Ok false ->
  exists N, (forall m, (m < N)%nat -> (d + Z.of_nat m * us < tend)%Z) /\ (tend <= d + Z.of_nat N * us)%Z
  /\ forall fuel, (N < fuel)%nat ->
     run T M fuel init (VDelta us) (VDate tend) se
     = Ok (at_step T M init (VDelta us) N, AStateList (init :: map (at_step T M init (VDelta us)) (saved T M init (VDelta us) se 0 N se))).
Proof.
  intros HF H0 Hd Ht Hs. destruct (steps_reach_Z d us tend Hd Ht) as [N [H1 H2]]. exists N. split; [exact H2|]. split; [exact H1|].
  intros fuel L. apply (run_ok _ _ _ _ _ (clock_date init d us H0)); auto.
  - cbn. f_equal. lia.
  - intros m Hm. specialize (H2 m Hm). cbn. f_equal. lia.
  - cbn. f_equal. lia.
Qed.
Lemma run_date_halts init d us tend se : python_forcing M -> s_time init = VDate d -> (0 < us)%Z ->
  exists N, forall fuel, (N < fuel)%nat -> run T M fuel init (VDelta us) (VDate tend) se <> Err OutOfFuel.
Proof.
  intros HP H0 Hd. destruct (Z_le_gt_dec d tend) as [Ht|Ht].
  - destruct (steps_reach_Z d us tend Hd Ht) as [N [H1 _]]. exists N. apply run_halts; [exact HP|].
    intros sm Hs. rewrite (clock_traj _ _ _ _ _ (clock_date init d us H0) _ _ Hs). cbn. intros X.
    assert (Y : (d + Z.of_nat N * us <? tend)%Z = true) by congruence. lia.
  - exists 0%nat. intros fuel _. rewrite run_past; [discriminate|]. rewrite H0. cbn. f_equal. lia.
Qed.
End Dates.

(** C31 in double precision: time steps below the resolution of the time *)
Definition t53 : b64 := b64_of_Z (2 ^ 53).
Definition t53_4 : b64 := b64_of_Z (2 ^ 53 + 4).
Lemma t53_sub : b64_sub t53 t53 = S754_zero false. Proof. vm_compute. reflexivity. Qed.
Lemma t53_add0 : b64_add t53 (S754_zero false) = t53. Proof. vm_compute. reflexivity. Qed.
Lemma t53_add1 : b64_add t53 (b64_of_Z 1) = t53. Proof. vm_compute. reflexivity. Qed.
Lemma t53_lt : SFltb t53 t53_4 = true. Proof. vm_compute. reflexivity. Qed.
Lemma t53_gt : SFltb t53_4 t53 = false. Proof. vm_compute. reflexivity. Qed.
Lemma py_lt_64 (a b : b64) : py_lt (@VNum num64 a) (@VNum num64 b) = Ok (SFltb a b). Proof. reflexivity. Qed.
Lemma py_add_64 (a b : b64) : py_add (@VNum num64 a) (@VNum num64 b) = Ok (@VNum num64 (b64_add a b)). Proof. reflexivity. Qed.
Lemma py_sub_64 (a b : b64) : py_sub (@VNum num64 a) (@VNum num64 b) = Ok (@VNum num64 (b64_sub a b)). Proof. reflexivity. Qed.
Lemma loop_64_diverges T (M : bmodel num64) : forcing_ok M ->
  forall fuel s new states ts, s_time s = @VNum num64 t53 -> s_time new = @VNum num64 t53 ->
  run_loop T M fuel (@VNum num64 t53_4) (@VNum num64 (S754_zero false)) s new states ts = Err OutOfFuel.
Proof.
  intros HF. induction fuel as [|fuel IH]; intros s new states ts H1 H2; [reflexivity|]. cbn [run_loop].
  rewrite H1. rewrite py_lt_64, t53_lt. cbn [bind].
  unfold leapfrog. rewrite H1, H2.
  rewrite py_sub_64, t53_sub.
  cbn [bind to_seconds]. destruct (tendency_ok T M new HF) as [x ->]. cbn [bind].
  rewrite py_add_64, t53_add0.
  cbn [bind]. change (n_zero num64) with (S754_zero false). rewrite py_lt_64. change (SFltb (S754_zero false) (S754_zero false)) with false.
  cbn [bind]. apply IH; reflexivity.
Qed.
Lemma run_64_diverges T (M : bmodel num64) (init : state num64) : forcing_ok M -> s_time init = @VNum num64 t53 ->
  forall fuel, run T M fuel init (@VNum num64 (b64_of_Z 1)) (@VNum num64 t53_4) (@VNum num64 (S754_zero false)) = Err OutOfFuel.
Proof.
  intros HF H0 fuel. unfold run. rewrite H0.
  rewrite py_lt_64, t53_gt. cbn [bind].
  unfold euler. rewrite H0. cbn [to_seconds bind]. destruct (tendency_ok T M init HF) as [x ->]. cbn [bind].
  rewrite py_add_64, t53_add1.
  cbn [bind]. rewrite (loop_64_diverges T M HF); [reflexivity|exact H0|reflexivity].
Qed.
