(** C145: times counted from the start with timedelta objects. *)
From Verif Require Import Base Model_Grid Model_Time Model_Spectral Model_State Model_Run Model_RHS.
From Verif Require Import Spec_Run Spec_Elapsed Proofs_Base Proofs_Run Proofs_RHS Proofs_Elapsed Props_Run Spec_Instance.
From Coq Require Import List Lia Sorted.
Import ListNotations.

(** The same integration as with dates, whatever the origin of the calendar, with every
    outcome: states, saved states and exceptions, whatever save_every is *)
Theorem C145_dates : forall K T d0 (A B : bmodel K), on_calendar d0 A B -> forall fuel s us tend se, elapsed s ->
  run T B fuel (dated d0 s) (VDelta us) (VDate (d0 + tend)) se = dated_result d0 (run T A fuel s (VDelta us) (VDelta tend) se).
Proof. intros. now apply cal_run. Qed.
Print Assumptions C145_dates.

(** run stops at the first state at or after the end time ... *)
Theorem C145_stops : forall K T (M : bmodel K) fuel init t us tend se f r,
  s_time init = VDelta t -> run T M fuel init (VDelta us) (VDelta tend) se = Ok (f, r) -> (t <= tend)%Z ->
  exists N, trajectory T M init (VDelta us) N f /\ s_time f = VDelta (t + Z.of_nat N * us)
    /\ (tend <= t + Z.of_nat N * us)%Z /\ forall m, (m < N)%nat -> (t + Z.of_nat m * us < tend)%Z.
Proof.
  intros K T M fuel init t us tend se f r Ht E L. assert (H : elapsed init) by (exists t; exact Ht). pose proof (moved_calendar 0 M) as HC.
  pose proof (cal_run T 0 M _ HC fuel init us tend se H) as R. rewrite E in R.
  assert (R' : exists q, run T (moved 0 M) fuel (dated 0 init) (VDelta us) (VDate (0 + tend)) se = Ok (dated 0 f, q)) by (destruct r; cbn in R; eauto). destruct R' as [q R'].
  destruct (C30_stops_dates K T (moved 0 M) fuel (dated 0 init) t us (0 + tend) se (dated 0 f) q) as [N [[new HT] [Hf [H1 H2]]]]; [unfold dated; cbn [s_time]; now rewrite Ht|exact R'|lia|].
  exists N. destruct (cal_steps T 0 M _ HC init us N H) as [[a [b [Ea [Eb [[ta Ha] _]]]]]|[x [_ Ex]]]; [|rewrite Ex in HT; discriminate]. rewrite Eb in HT. injection HT as HA HP HT HB.
  assert (EL : elapsed f).
  { clear -E H Ea. apply run_sound in E. destruct E as [[_ [-> _]]|[_ [n [[new En] _]]]]; [exact H|]. destruct (cal_steps T 0 M _ (moved_calendar 0 M) init us n H) as [[x [y [E1 [_ [Hx _]]]]]|[e [E1 _]]]; rewrite E1 in En; [|discriminate]. injection En as <- _. exact Hx. }
  destruct EL as [tf Hf']. assert (ET : tf = ta) by (unfold dated in HP; cbn [s_time] in HP; rewrite Ha, Hf' in HP; cbn [date_of] in HP; injection HP as HP; lia). subst tf.
  assert (EF : a = f) by (destruct a as [ga tma xa], f as [gf tmf xf]; cbn in *; congruence). subst a.
  split; [exists b; exact Ea|]. unfold dated in Hf. cbn [s_time] in Hf. rewrite Hf' in Hf. cbn [date_of] in Hf. injection Hf as Hf. split; [rewrite Hf'; f_equal; lia|]. split; [lia|]. intros m Hm. specialize (H2 m Hm). lia.
Qed.
Print Assumptions C145_stops.

(** ... and it ends if the time step is positive *)
Theorem C145_terminates : forall K T (M : bmodel K) init t us tend se, python_forcing M ->
  s_time init = VDelta t -> (0 < us)%Z ->
  exists N, forall fuel, (N < fuel)%nat -> run T M fuel init (VDelta us) (VDelta tend) se <> Err OutOfFuel.
Proof.
  intros K T M init t us tend se HP Ht Hu. assert (HP' : python_forcing (moved 0 M)) by (unfold python_forcing, moved in *; cbn [m_rhs]; destruct (m_rhs M); [intros s; apply HP|exact I]).
  destruct (C31_terminates_dates K T (moved 0 M) (dated 0 init) t us (0 + tend) se HP') as [N HN]; [unfold dated; cbn [s_time]; now rewrite Ht|exact Hu|].
  exists N. intros fuel L V. apply (HN fuel L). rewrite (cal_run T 0 M _ (moved_calendar 0 M)), V by (exists t; exact Ht). reflexivity.
Qed.
Print Assumptions C145_terminates.

(** TimedOffSwitch: 1 until tend, 0 afterwards, so a sequence of ones and zeros *)
Theorem C145_switch : forall K T g x (tend t : Z),
  call (K := K) T (PSwitch (VDelta tend)) (mkState g (VDelta t) x) = Ok (FNum 1) /\ (t <= tend)%Z
  \/ call (K := K) T (PSwitch (VDelta tend)) (mkState g (VDelta t) x) = Ok (FNum 0) /\ (tend < t)%Z.
Proof. intros. cbn [call]. unfold switch_call. cbn [s_time py_le bind]. destruct (Z.leb_spec t tend); [left|right]; split; auto. Qed.
Print Assumptions C145_switch.

(** dates, numbers and elapsed times do not mix *)
Theorem C145_mixing : forall K T (M : bmodel K) fuel init dt se (d t : Z) (x : nT K),
  (s_time init = VDelta t -> run T M fuel init dt (VDate d) se = Err TypeError /\ run T M fuel init dt (VNum x) se = Err TypeError)
  /\ (s_time init = VDate d \/ s_time init = VNum x -> run T M fuel init dt (VDelta t) se = Err TypeError)
  /\ forall g y, call (K := K) T (PSwitch (VDate d)) (mkState g (VDelta t) y) = Err TypeError /\ call (K := K) T (PSwitch (VNum x)) (mkState g (VDelta t) y) = Err TypeError
     /\ call (K := K) T (PSwitch (VDelta t)) (mkState g (VDate d) y) = Err TypeError /\ call (K := K) T (PSwitch (VDelta t)) (mkState g (VNum x) y) = Err TypeError.
Proof.
  intros K T M fuel init dt se d t x. split; [intros E; split; unfold run; rewrite E; reflexivity|]. split; [intros [E|E]; unfold run; rewrite E; reflexivity|]. intros g y. repeat split; reflexivity.
Qed.
Print Assumptions C145_mixing.

(** saving raises *)
Theorem C145_save_every : forall T (M : bmodel numR) fuel init (t us tend : Z) (s : R), forcing_ok M ->
  s_time init = VDelta t -> (t < tend)%Z -> (0 < s)%R ->
  run T M (S fuel) init (VDelta us) (VDelta tend) (@VNum numR s) = Err TypeError.
Proof.
  intros T M fuel init t us tend s HF Ht L Hs. assert (HF' : forcing_ok (moved 0 M)) by (unfold forcing_ok, moved in *; cbn [m_rhs]; destruct (m_rhs M); [intros b; apply HF|exact I]).
  pose proof (C38_save_every_datetime T (moved 0 M) fuel (dated 0 init) t us (0 + tend) s HF') as E. rewrite (cal_run T 0 M _ (moved_calendar 0 M)) in E by (exists t; exact Ht).
  assert (Q : dated_result 0 (run T M (S fuel) init (VDelta us) (VDelta tend) (@VNum numR s)) = Err TypeError) by (apply E; [unfold dated; cbn [s_time]; now rewrite Ht|lia|exact Hs]).
  destruct (run T M (S fuel) init (VDelta us) (VDelta tend) (@VNum numR s)) as [[f [l|l]]|e]; cbn in Q; try discriminate. now injection Q as ->.
Qed.
Print Assumptions C145_save_every.

(** Example: the state of C30 after 100 microseconds, and a forcing switched off by elapsed time *)
Definition example_elapsed : state numR := mkState (d1_grid 1 1) (VDelta 100) (s_pvs example_init).
Example C145_nonvacuous : elapsed example_elapsed /\ s_time example_elapsed = VDelta 100 /\ (100 <= 2000)%Z
  /\ dated 10 example_elapsed = mkState (d1_grid 1 1) (VDate 110) (s_pvs example_init)
  /\ on_calendar 10 (mkModel (Some (call d1_family (PSwitch (VDelta 2000)))) 2 1 None) (mkModel (Some (call d1_family (PSwitch (@VDate numR 2010)))) 2 1 None)
  /\ python_forcing (mkModel (Some (call d1_family (PSwitch (@VDelta numR 2000)))) 2 1 None) /\ forcing_ok example_model
  /\ exists fuel f l, run d1_family example_model fuel example_elapsed (VDelta 1900) (VDelta 2000) (@VNum numR 0%R) = Ok (f, AStateList l) /\ s_time f = VDelta 2000.
Proof.
  split; [eexists; reflexivity|]. split; [reflexivity|]. split; [lia|]. split; [reflexivity|]. split.
  - do 3 (split; [reflexivity|]). cbn [m_rhs]. intros [g tm x] [t E]. cbn in E. subst tm. unfold dated. cbn [call s_time s_grid s_pvs date_of]. unfold switch_call. cbn [s_time py_le bind].
    do 3 f_equal. destruct (Z.leb_spec (10 + t) 2010), (Z.leb_spec t 2000); try reflexivity; lia.
  - split; [|split; [exact I|]].
    + unfold python_forcing. cbn [m_rhs call]. intros s. unfold switch_call. destruct (s_time s); cbn; discriminate.
    + destruct (C30_returns_dates d1_family (moved 0 example_model) (dated 0 example_elapsed) 100 1900 (0 + 2000) 0 I eq_refl ltac:(lia) ltac:(lia) (Rle_refl 0)) as [n [f [l H]]].
      specialize (H (Nat.max n 2) ltac:(lia)). rewrite (cal_run d1_family 0 example_model _ (moved_calendar 0 example_model)) in H by (eexists; reflexivity).
      destruct (run d1_family example_model (Nat.max n 2) example_elapsed (VDelta 1900) (VDelta 2000) (@VNum numR 0%R)) as [[f' [l'|l']]|e] eqn:E; cbn in H; try discriminate.
      exists (Nat.max n 2), f', l'. split; [exact E|]. destruct (C145_stops numR d1_family example_model _ example_elapsed 100 1900 2000 _ f' _ eq_refl E ltac:(lia)) as [N [_ [Ht [H1 H2]]]]. rewrite Ht. f_equal.
      assert (N = 1%nat); [|subst N; lia]. destruct N as [|[|N]]; [lia|reflexivity|]. specialize (H2 1%nat ltac:(lia)). lia.
Qed.
