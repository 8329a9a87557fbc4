(** Integrations: lemmas about run, euler and leapfrog. *)
From Coq Require Export String.
From Verif Require Import Base Model_Grid Model_Time Model_Spectral Model_State Model_Run.
From Verif Require Import Spec_Grid Spec_Spectral Spec_State Spec_Instance Spec_Run.
From Verif Require Import Proofs_Base Proofs_Grid Proofs_Spectral Proofs_Instance Proofs_State.
From Coquelicot Require Import Coquelicot.
From Coq Require Import List Lia Lra.
Open Scope R_scope.

Ltac inv_bind H := match type of H with
  | bind ?r _ = Ok _ => let E := fresh "E" in destruct r eqn:E; cbn [bind] in H; [|discriminate H]
  end.

Section Loop.
Context {K : numtype} (T : sphfam) (M : bmodel K).

Lemma euler_facts s dt e : euler T M s dt = Ok e -> s_grid e = s_grid s /\ py_add (s_time s) dt = Ok (s_time e).
Proof. unfold euler. intros H. do 3 inv_bind H. injection H as <-. cbn. auto. Qed.
Lemma leapfrog_facts a b nu f n : leapfrog T M a b nu = Ok (f, n) ->
  s_grid f = s_grid b /\ s_grid n = s_grid b /\ s_time f = s_time b
  /\ exists dt, py_sub (s_time b) (s_time a) = Ok dt /\ py_add (s_time b) dt = Ok (s_time n).
Proof. unfold leapfrog. intros H. do 4 inv_bind H. injection H as <- <-. cbn. eauto 6. Qed.

Variables (init : state K) (dt : pyval K).
Notation steps := (steps T M init dt).
Notation traj := (trajectory T M init dt).

Lemma steps_grid n s new : steps n = Ok (s, new) -> s_grid s = s_grid init /\ s_grid new = s_grid init.
Proof.
  revert s new. induction n as [|n IH]; intros s new H; cbn [Spec_Run.steps] in H.
  - inv_bind H. injection H as <- <-. split; [reflexivity|]. now apply euler_facts in E.
  - inv_bind H. destruct a as [s0 n0]. cbn [fst snd] in H. apply leapfrog_facts in H.
    destruct (IH _ _ eq_refl) as [_ G]. destruct H as [H1 [H2 _]]. now rewrite H1, H2.
Qed.
Lemma steps_S n s new s' new' : steps n = Ok (s, new) ->
  leapfrog T M s new default_nu = Ok (s', new') -> steps (S n) = Ok (s', new').
Proof. intros H1 H2. cbn [Spec_Run.steps]. now rewrite H1. Qed.
Lemma steps_prev n p : steps (S n) = Ok p -> exists q, steps n = Ok q /\ leapfrog T M (fst q) (snd q) default_nu = Ok p.
Proof. cbn [Spec_Run.steps]. intros H. inv_bind H. eauto. Qed.
Lemma steps_le n m p : steps n = Ok p -> (m <= n)%nat -> exists q, steps m = Ok q.
Proof.
  revert p. induction n as [|n IH]; intros p H L; [exists p; now replace m with 0%nat by lia|].
  destruct (Nat.eq_dec m (S n)) as [->|]; [now exists p|]. apply steps_prev in H. destruct H as [q [H _]].
  apply (IH q H). lia.
Qed.
Lemma traj_fun n s s' : traj n s -> traj n s' -> s = s'.
Proof. intros [a H] [b H']. congruence. Qed.

Definition at_step (n : nat) : state K := match steps n with Ok p => fst p | Err _ => init end.
Lemma at_step_eq n s new : steps n = Ok (s, new) -> at_step n = s.
Proof. unfold at_step. now intros ->. Qed.
Lemma traj_at n s : traj n s -> at_step n = s.
Proof. intros [new H]. eapply at_step_eq, H. Qed.

Definition is_true (r : res bool) : bool := match r with Ok b => b | Err _ => false end.
Definition get {A} (r : res A) (d : A) : A := match r with Ok a => a | Err _ => d end.
Fixpoint saved (se : pyval K) (n c : nat) (ts : pyval K) : list nat :=
  match c with
  | O => []
  | S c =>
      if is_true (py_lt (VNum (n_zero K)) se) && is_true (py_le ts (s_time (at_step (S n))))
      then S n :: saved se (S n) c (get (py_add ts se) ts)
      else saved se (S n) c ts
  end.
Lemma saved_app se n a b ts : exists ts', saved se n (a + b) ts = saved se n a ts ++ saved se (n + a) b ts'.
Proof.
  revert n ts. induction a as [|a IH]; intros n ts; [exists ts; now rewrite Nat.add_0_r|].
  cbn [Nat.add saved]. replace (n + S a)%nat with (S n + a)%nat by lia.
  destruct (is_true _ && is_true _).
  - destruct (IH (S n) (get (py_add ts se) ts)) as [ts' E]. exists ts'. now rewrite E.
  - destruct (IH (S n) ts) as [ts' E]. exists ts'. now rewrite E.
Qed.
Lemma saved_range se n c ts k : In k (saved se n c ts) -> (n < k <= n + c)%nat.
Proof.
  revert n ts. induction c as [|c IH]; intros n ts; [easy|]. cbn [saved].
  destruct (is_true _ && is_true _); [intros [<-|H]; [lia|]|intros H]; apply IH in H; lia.
Qed.

Lemma loop_sound tend se fuel : forall n s new states ts f l,
  steps n = Ok (s, new) -> run_loop T M fuel tend se s new states ts = Ok (f, l) ->
  exists N, (n <= N)%nat /\ traj N f /\ py_lt (s_time f) tend = Ok false
    /\ (forall m sm, (n <= m < N)%nat -> traj m sm -> py_lt (s_time sm) tend = Ok true)
    /\ l = states ++ map at_step (saved se n (N - n) ts).
Proof.
  induction fuel as [|fuel IH]; intros n s new states ts f l HS H; [discriminate|].
  cbn [run_loop] in H. inv_bind H. destruct a.
  2:{ injection H as <- <-. exists n. split; [lia|]. split; [now exists new|]. split; [exact E|].
      split; [intros; lia|]. rewrite Nat.sub_diag. cbn. now rewrite app_nil_r. }
  inv_bind H. destruct a as [s1 new1]. pose proof (steps_S _ _ _ _ _ HS E0) as HS1.
  inv_bind H.
  assert (Step : forall states' ts', run_loop T M fuel tend se s1 new1 states' ts' = Ok (f, l) ->
    states' ++ map at_step (saved se (S n) (0) ts') = states' ->
    exists N, (S n <= N)%nat /\ traj N f /\ py_lt (s_time f) tend = Ok false
    /\ (forall m sm, (n <= m < N)%nat -> traj m sm -> py_lt (s_time sm) tend = Ok true)
    /\ l = states' ++ map at_step (saved se (S n) (N - S n) ts')).
  { intros states' ts' HR _. destruct (IH _ _ _ _ _ _ _ HS1 HR) as [N [L [HT [HF [HB HL]]]]].
    exists N. split; [exact L|]. split; [exact HT|]. split; [exact HF|]. split; [|exact HL].
    intros m sm Hm Htr. destruct (Nat.eq_dec m n) as [->|].
    - rewrite (traj_fun n sm s Htr); [exact E|now exists new].
    - apply (HB m sm); [lia|exact Htr]. }
  assert (SV : forall N, (S n <= N)%nat -> saved se n (N - n) ts =
     if is_true (py_lt (VNum (n_zero K)) se) && is_true (py_le ts (s_time s1))
      then S n :: saved se (S n) (N - S n) (get (py_add ts se) ts)
      else saved se (S n) (N - S n) ts).
  { intros N L. replace (N - n)%nat with (S (N - S n)) by lia. cbn [saved]. now rewrite (at_step_eq _ _ _ HS1). }
  destruct a.
  - inv_bind H. destruct a.
    + inv_bind H. apply Step in H; [|cbn; now rewrite app_nil_r]. destruct H as [N [L [HT [HF [HB HL]]]]].
      exists N. split; [lia|]. split; [exact HT|]. split; [exact HF|]. split; [exact HB|].
      rewrite HL, SV by exact L. rewrite E1. cbn [is_true andb get map]. rewrite (at_step_eq _ _ _ HS1), <- app_assoc. reflexivity.
    + apply Step in H; [|cbn; now rewrite app_nil_r]. destruct H as [N [L [HT [HF [HB HL]]]]].
      exists N. split; [lia|]. split; [exact HT|]. split; [exact HF|]. split; [exact HB|].
      rewrite HL, SV by exact L. rewrite E1. reflexivity.
  - apply Step in H; [|cbn; now rewrite app_nil_r]. destruct H as [N [L [HT [HF [HB HL]]]]].
    exists N. split; [lia|]. split; [exact HT|]. split; [exact HF|]. split; [exact HB|].
    rewrite HL, SV by exact L. rewrite E1. reflexivity.
Qed.

Lemma run_sound fuel tend se f r : run T M fuel init dt tend se = Ok (f, r) ->
  (py_lt tend (s_time init) = Ok true /\ f = init /\ r = PlainList (init :: nil))
  \/ (py_lt tend (s_time init) = Ok false
      /\ exists N, traj N f /\ py_lt (s_time f) tend = Ok false
      /\ (forall m sm, (m < N)%nat -> traj m sm -> py_lt (s_time sm) tend = Ok true)
      /\ r = AStateList (init :: map at_step (saved se 0 N se))).
Proof.
  unfold run. intros H. inv_bind H. destruct a; [left; injection H as <- <-; auto|]. right. split; [reflexivity|].
  inv_bind H. inv_bind H. destruct a0 as [s l]. inv_bind H. injection H as <- <-.
  assert (H0 : steps 0 = Ok (init, a)) by (cbn; now rewrite E0).
  destruct (loop_sound _ _ _ _ _ _ _ _ _ _ H0 E1) as [N [L [HT [HF [HB HL]]]]].
  exists N. split; [exact HT|]. split; [exact HF|]. split; [intros m sm Hm; apply HB; lia|].
  rewrite Nat.sub_0_r in HL. cbn [app] in HL. f_equal. rewrite <- HL. unfold statelist_of in E2.
  destruct l as [|x l]; [now injection E2 as <-|]. unfold passert in E2. destruct (forallb _ _); [|discriminate].
  now injection E2 as <-.
Qed.

(** runs that succeed *)
Lemma loop_ok tend se fuel : forall n s new states ts N,
  steps n = Ok (s, new) -> (n <= N)%nat -> (N - n < fuel)%nat ->
  (exists p, steps N = Ok p) ->
  (forall m sm, traj m sm -> (n <= m < N)%nat -> py_lt (s_time sm) tend = Ok true) ->
  (forall sm, traj N sm -> py_lt (s_time sm) tend = Ok false) ->
  (py_lt (VNum (n_zero K)) se = Ok false
   \/ py_lt (VNum (n_zero K)) se = Ok true
      /\ exists P : pyval K -> Prop, P ts /\ forall x, P x -> (exists y, py_add x se = Ok y /\ P y)
          /\ forall m sm, traj m sm -> exists b, py_le x (s_time sm) = Ok b) ->
  exists r, run_loop T M fuel tend se s new states ts = Ok r.
Proof.
  induction fuel as [|fuel IH]; intros n s new states ts N HS L F HN HT HF HP; [lia|].
  cbn [run_loop]. destruct (Nat.eq_dec n N) as [->|NE].
  { rewrite (HF s (ex_intro _ new HS)). cbn [bind]. eauto. }
  rewrite (HT n s (ex_intro _ new HS)) by lia. cbn [bind]. destruct HN as [p HN].
  destruct (steps_le N (S n) p HN ltac:(lia)) as [[s1 new1] HS1].
  pose proof HS1 as HS2. apply steps_prev in HS2. destruct HS2 as [q [Hq HL]].
  rewrite Hq in HS. injection HS as ->. cbn [fst snd] in HL. rewrite HL. cbn [bind].
  assert (HT' : forall m sm, traj m sm -> (S n <= m < N)%nat -> py_lt (s_time sm) tend = Ok true).
  { intros m sm Htr Hm. apply (HT m sm Htr). lia. }
  destruct HP as [HP|[HP [P [P0 PS]]]]; rewrite HP; cbn [bind].
  - apply (IH (S n) s1 new1 _ _ N); auto; try lia; eauto.
  - destruct (PS ts P0) as [[y [Hy Py]] Hle].
    destruct (Hle (S n) s1 (ex_intro _ new1 HS1)) as [b Hb]. rewrite Hb. cbn [bind].
    destruct b; [rewrite Hy; cbn [bind]|]; (apply (IH (S n) s1 new1 _ _ N); auto; try lia; eauto; right; eauto).
Qed.

(** unfinished loops *)
Lemma leapfrog_fuel a b nu : python_forcing M -> leapfrog T M a b nu <> Err OutOfFuel.
Proof.
  intros HP. unfold leapfrog, pv_tendency_spectral, python_forcing in *.
  destruct (py_sub (s_time b) (s_time a)) eqn:E1; cbn [bind]; [|destruct (s_time b), (s_time a); cbn in E1; congruence].
  destruct (to_seconds a0) eqn:E2; cbn [bind]; [|destruct a0; cbn in E2; congruence].
  assert (Q : forall r : spec, (do time <- py_add (s_time b) a0;
     Ok (mkState (s_grid b) (s_time b) (sadd (sscale (1 - 2 * nu) (s_pvs b)) (sscale nu (sadd (s_pvs a)
        (apply_diffusion T M (s_grid b) (2 * a1) (sadd (s_pvs a) (sscale (2 * a1) r)))))),
        mkState (s_grid b) time (apply_diffusion T M (s_grid b) (2 * a1) (sadd (s_pvs a) (sscale (2 * a1) r))))) <> Err OutOfFuel).
  { intros r. destruct (py_add (s_time b) a0) eqn:E3; cbn [bind]; [discriminate|]. destruct (s_time b), a0; cbn in E3; congruence. }
  destruct (m_rhs M) as [f|]; cbn [bind]; [|apply Q].
  specialize (HP b). destruct (f b) as [[c|x]|e]; cbn [bind]; [discriminate|apply Q|congruence].
Qed.
Lemma euler_fuel s d : python_forcing M -> euler T M s d <> Err OutOfFuel.
Proof.
  intros HP. unfold euler, pv_tendency_spectral, python_forcing in *.
  destruct (to_seconds d) eqn:E2; cbn [bind]; [|destruct d; cbn in E2; congruence].
  assert (Q : forall r : spec, (do time <- py_add (s_time s) d;
     Ok (mkState (s_grid s) time (apply_diffusion T M (s_grid s) a (sadd (s_pvs s) (sscale a r))))) <> Err OutOfFuel).
  { intros r. destruct (py_add (s_time s) d) eqn:E3; cbn [bind]; [discriminate|]. destruct (s_time s), d; cbn in E3; congruence. }
  destruct (m_rhs M) as [f|]; cbn [bind]; [|apply Q].
  specialize (HP s). destruct (f s) as [[c|x]|e]; cbn [bind]; [discriminate|apply Q|congruence].
Qed.
Lemma py_fuel (a b : pyval K) : py_lt a b <> Err OutOfFuel /\ py_le a b <> Err OutOfFuel /\ py_add a b <> Err OutOfFuel.
Proof. destruct a, b; cbn; repeat split; discriminate. Qed.

Lemma loop_halts tend se : python_forcing M -> forall c n s new states ts fuel, steps n = Ok (s, new) ->
  (forall sm, traj (n + c) sm -> py_lt (s_time sm) tend <> Ok true) -> (c < fuel)%nat ->
  run_loop T M fuel tend se s new states ts <> Err OutOfFuel.
Proof.
  intros HP. induction c as [|c IH]; intros n s new states ts fuel HS HN L.
  - destruct fuel as [|fuel]; [lia|]. cbn [run_loop]. rewrite Nat.add_0_r in HN.
    specialize (HN s (ex_intro _ new HS)).
    pose proof (proj1 (py_fuel (s_time s) tend)). destruct (py_lt (s_time s) tend) as [[|]|]; cbn [bind]; congruence.
  - destruct fuel as [|fuel]; [lia|]. cbn [run_loop].
    pose proof (proj1 (py_fuel (s_time s) tend)). destruct (py_lt (s_time s) tend) as [[|]|]; cbn [bind]; try congruence.
    pose proof (leapfrog_fuel s new default_nu HP).
    destruct (leapfrog T M s new default_nu) as [[s1 new1]|] eqn:EL; cbn [bind]; try congruence.
    assert (Q : forall states ts, run_loop T M fuel tend se s1 new1 states ts <> Err OutOfFuel).
    { intros. apply (IH (S n)); [now apply (steps_S _ s new)| |lia]. intros sm. replace (S n + c)%nat with (n + S c)%nat by lia. apply HN. }
    pose proof (py_fuel (VNum (n_zero K)) se) as [Q1 _]. destruct (py_lt _ se) as [[|]|]; cbn [bind]; try congruence; try apply Q.
    pose proof (py_fuel ts (s_time s1)) as [_ [Q2 _]]. destruct (py_le ts _) as [[|]|]; cbn [bind]; try congruence; try apply Q.
    pose proof (py_fuel ts se) as [_ [_ Q3]]. destruct (py_add ts se); cbn [bind]; try congruence; try apply Q.
Qed.

Lemma run_halts tend se N : python_forcing M ->
  (forall sm, traj N sm -> py_lt (s_time sm) tend <> Ok true) ->
  forall fuel, (N < fuel)%nat -> run T M fuel init dt tend se <> Err OutOfFuel.
Proof.
  intros HP HN fuel L. unfold run.
  pose proof (proj1 (py_fuel tend (s_time init))). destruct (py_lt tend (s_time init)) as [[|]|]; cbn [bind]; try congruence.
  pose proof (euler_fuel init dt HP). destruct (euler T M init dt) as [e|] eqn:EE; cbn [bind]; try congruence.
  assert (H1 : steps 0 = Ok (init, e)) by (cbn; now rewrite EE).
  pose proof (loop_halts tend se HP N 0 init e (init :: nil) se fuel H1 HN L).
  destruct (run_loop _ _ _ _ _ _ _ _ _) as [[s l]|]; cbn [bind]; try congruence.
  unfold statelist_of, passert. destruct l; cbn [bind]; [congruence|]. destruct (forallb _ _); cbn [bind]; congruence.
Qed.

(** forcings that return fields never make a step fail *)
Lemma tendency_ok s : forcing_ok M -> exists x, pv_tendency_spectral T M s = Ok x.
Proof.
  unfold forcing_ok, pv_tendency_spectral. destruct (m_rhs M) as [f|]; [|eauto].
  intros H. destruct (H s) as [x E]. rewrite E. cbn [bind]. eauto.
Qed.
Lemma forcing_python : forcing_ok M -> python_forcing M.
Proof. unfold forcing_ok, python_forcing. destruct (m_rhs M); [|auto]. intros H s. destruct (H s) as [x ->]. discriminate. Qed.

(** clocks *)
Definition clock (tm : nat -> pyval K) : Prop :=
  s_time init = tm 0%nat /\ (exists d, to_seconds dt = Ok d)
  /\ (forall n, py_add (tm n) dt = Ok (tm (S n))) /\ (forall n, py_sub (tm (S n)) (tm n) = Ok dt).
Variable tm : nat -> pyval K.
Hypothesis HC : clock tm.
Lemma clock_times n s new : steps n = Ok (s, new) -> s_time s = tm n /\ s_time new = tm (S n).
Proof.
  destruct HC as [C0 [_ [CA CS]]]. revert s new. induction n as [|n IH]; intros s new H.
  - cbn [Spec_Run.steps] in H. inv_bind H. injection H as <- <-. split; [exact C0|].
    apply euler_facts in E. destruct E as [_ E]. rewrite C0, CA in E. congruence.
  - apply steps_prev in H. destruct H as [[a b] [H HL]]. destruct (IH a b H) as [T1 T2]. cbn [fst snd] in HL.
    apply leapfrog_facts in HL. destruct HL as [_ [_ [T3 [d [D1 D2]]]]]. rewrite T1, T2, CS in D1. injection D1 as <-.
    rewrite T2, CA in D2. split; congruence.
Qed.
Lemma clock_traj n s : traj n s -> s_time s = tm n.
Proof. intros [new H]. now apply clock_times in H. Qed.
Lemma clock_ok n : forcing_ok M -> exists p, steps n = Ok p.
Proof.
  intros HF. destruct HC as [C0 [[d CD] [CA CS]]]. induction n as [|n [[s new] IH]].
  - cbn. unfold euler. rewrite CD. cbn [bind]. destruct (tendency_ok init HF) as [x ->]. cbn [bind].
    rewrite C0, CA. cbn [bind]. eauto.
  - destruct (clock_times _ _ _ IH) as [T1 T2]. cbn [Spec_Run.steps]. rewrite IH. cbn [bind fst snd].
    unfold leapfrog. rewrite T1, T2, CS. cbn [bind]. rewrite CD. cbn [bind].
    destruct (tendency_ok new HF) as [x ->]. cbn [bind]. rewrite CA. cbn [bind]. eauto.
Qed.
Lemma grids_ok ks : forcing_ok M -> statelist_of (init :: map at_step ks) = Ok (init :: map at_step ks).
Proof.
  intros HF. unfold statelist_of, passert. rewrite (proj2 (forallb_forall _ _)); [reflexivity|].
  intros x [<-|Hx]; [apply grid_eqb_refl|]. apply in_map_iff in Hx. destruct Hx as [k [<- _]].
  destruct (clock_ok k HF) as [[a b] Hk]. rewrite (at_step_eq _ _ _ Hk). destruct (steps_grid _ _ _ Hk) as [-> _]. apply grid_eqb_refl.
Qed.
Lemma run_ok tend se N fuel : forcing_ok M -> (N < fuel)%nat ->
  py_lt tend (tm 0) = Ok false -> (forall m, (m < N)%nat -> py_lt (tm m) tend = Ok true) -> py_lt (tm N) tend = Ok false ->
  (py_lt (VNum (n_zero K)) se = Ok false
   \/ py_lt (VNum (n_zero K)) se = Ok true
      /\ exists P : pyval K -> Prop, P se /\ forall x, P x -> (exists y, py_add x se = Ok y /\ P y)
          /\ forall m, exists b, py_le x (tm m) = Ok b) ->
  run T M fuel init dt tend se = Ok (at_step N, AStateList (init :: map at_step (saved se 0 N se))).
Proof.
  intros HF L H0 HT HN HP. pose proof HC as [C0 _].
  assert (HX : exists r, run T M fuel init dt tend se = Ok r).
  { unfold run. rewrite C0, H0. cbn [bind]. destruct (clock_ok 0 HF) as [[s e] HE].
    pose proof HE as HE0. cbn [Spec_Run.steps] in HE0. inv_bind HE0. injection HE0 as <- <-. cbn [bind].
    destruct (loop_ok tend se fuel 0 init a (init :: nil) se N HE) as [[f l] HR]; try lia.
    - now apply clock_ok.
    - intros m sm Hm Hm'. rewrite (clock_traj _ _ Hm). apply HT. lia.
    - intros sm Hm. now rewrite (clock_traj _ _ Hm).
    - destruct HP as [HP|[HP [P [P0 PS]]]]; [now left|right]. split; [exact HP|]. exists P. split; [exact P0|].
      intros x Px. destruct (PS x Px) as [PA PB]. split; [exact PA|]. intros m sm Hm. rewrite (clock_traj _ _ Hm). apply PB.
    - rewrite HR. cbn [bind]. destruct (loop_sound _ _ _ _ _ _ _ _ _ _ HE HR) as [N' [_ [_ [_ [_ ->]]]]].
      cbn [app]. rewrite grids_ok by exact HF. cbn [bind]. eauto. }
  destruct HX as [[f r] HR]. rewrite HR. destruct (run_sound _ _ _ _ _ HR) as [[X _]|[_ [N' [HT' [HF' [HB' ->]]]]]].
  { rewrite C0 in X. congruence. }
  assert (N' = N).
  { rewrite (clock_traj _ _ HT') in HF'. destruct (Nat.lt_trichotomy N' N) as [Lt|[Eq|Gt]]; [|exact Eq|].
    - rewrite (HT N' Lt) in HF'. discriminate.
    - destruct (clock_ok N HF) as [[s new] Hs]. specialize (HB' N s Gt (ex_intro _ new Hs)).
      rewrite (clock_traj N s (ex_intro _ new Hs)) in HB'. congruence. }
  subst N'. now rewrite (traj_at _ _ HT').
Qed.
End Loop.
