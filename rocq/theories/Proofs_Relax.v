(** Integrations relaxed towards a reference (C116). *)
From Coq Require Export String.
From Verif Require Import Base Model_Grid Model_Time Model_Spectral Model_State Model_Run Model_RHS.
From Verif Require Import Spec_Grid Spec_Spectral Spec_State Spec_Instance Spec_Run Spec_RHS Spec_Calculus Spec_Sym Spec_Symmetry Spec_Relax.
From Verif Require Import Proofs_Base Proofs_Grid Proofs_Spectral Proofs_Instance Proofs_State Proofs_Run Proofs_Step Proofs_RHS Proofs_Orog Proofs_Calculus Proofs_Sym Proofs_Symmetry Proofs_Recur.
From Coquelicot Require Import Complex.
From Coq Require Import List Lia Lra.
Open Scope R_scope.

Lemma opp_scale x : sopp x = sscale (-1) x.
Proof.
  apply spec_ext; [now rewrite sopp_length, sscale_length|]. rewrite sopp_length. intros k Hk.
  rewrite coef_sopp, coef_sscale by assumption. rewrite RtoC_m1. ring.
Qed.
Lemma Cmod_parts (c : C) e : Rabs (fst c) <= e -> Rabs (snd c) <= e -> Cmod c <= 2 * e.
Proof.
  intros A B. eapply Rle_trans; [apply Cmod_2Rmax|]. pose proof (Rabs_pos (fst c)). pose proof (Rmax_lub _ _ _ A B).
  assert (sqrt 2 <= 2). { rewrite <- (sqrt_square 2) at 2 by lra. apply sqrt_le_1; lra. }
  assert (0 <= Rmax (Rabs (fst c)) (Rabs (snd c))). { eapply Rle_trans; [apply Rabs_pos|apply Rmax_l]. }
  pose proof (sqrt_pos 2). nra.
Qed.
Lemma Cmod_lower (c : C) e : e <= Rabs (fst c) \/ e <= Rabs (snd c) -> e <= Cmod c.
Proof.
  intros [A|A]; eapply Rle_trans; try exact A; (eapply Rle_trans; [|apply Rmax_Cmod]); [apply Rmax_l|apply Rmax_r].
Qed.

(** coefficient vectors of integrations that stay among P *)
Definition good {K} (g : grid) (P : list C -> Prop) (s : state K) : Prop := s_grid s = g /\ P (s_pvs s).

Section Tendency.
Context {K : numtype} (T : sphfam) (g : grid) (H : exact_on T g).
Notation N := (nspec (g_ntrunc g)).
Notation A := (to_spectral T g).
Notation B := (to_grid T g).
Context (M : bmodel K) (rate : R) (ref : mat) (k : nat).
Hypothesis Hk : (k < N)%nat.
Variable P : list C -> Prop.
Hypothesis P_len : forall x, P x -> length x = N.
Hypothesis P_res : forall x, P x -> A (B x) = x.
Hypothesis P_add : forall x y, P x -> P y -> P (sadd x y).
Hypothesis P_scale : forall c x, P x -> P (sscale c x).
Hypothesis P_ref : P (A ref).
Hypothesis P_flux : forall s : state K, s_grid s = g -> P (s_pvs s) -> P (s_pv_flux_spectral T s) /\ coef (s_pv_flux_spectral T s) k = RtoC 0.
Lemma P_opp x : P x -> P (sopp x).
Proof. intros X. rewrite opp_scale. now apply P_scale. Qed.
Lemma P_sub x y : P x -> P y -> P (ssub x y).
Proof. intros X Y. rewrite ssub_lin by now rewrite !P_len. auto. Qed.
Definition tends (s : state K) : Prop := exists t, pv_tendency_spectral T M s = Ok t /\ P t
  /\ coef t k = (RtoC rate * (coef (A ref) k - coef (s_pvs s) k))%C.

Lemma relax_tendency s : shaped (g_nlat g) (g_nlon g) ref -> m_rhs M = Some (call T (PRelax rate (FMat ref))) -> good g P s -> tends s.
Proof.
  intros HS HM [G X]. destruct (relax_value T g H s rate ref G HS) as [F [EF [FF _]]].
  unfold tends, pv_tendency_spectral. rewrite HM. cbn [call]. rewrite EF. cbn [bind]. rewrite G, FF.
  assert (OG : on_grid T g s). { split; [exact G|]. split; [now apply P_len|]. exact (P_res _ X). }
  rewrite (relax_spectral T g H s rate ref OG HS). destruct (P_flux s G X) as [PF CF].
  eexists. split; [reflexivity|]. split; [auto using P_opp, P_sub|].
  pose proof (P_len _ X). pose proof (P_len _ PF). pose proof (A_len T g H ref).
  rewrite coef_sadd, coef_sopp, coef_sscale, coef_ssub, CF; rewrite ?sopp_length, ?sscale_length, ?ssub_length; try congruence || lia. cring.
Qed.
Lemma free_tendency s : rate = 0 -> m_rhs M = None -> good g P s -> tends s.
Proof.
  intros Hr HM [G X]. unfold tends, pv_tendency_spectral. rewrite HM. destruct (P_flux s G X) as [PF CF].
  eexists. split; [reflexivity|]. split; [now apply P_opp|]. pose proof (P_len _ PF). rewrite coef_sopp, CF, Hr by lia. cring.
Qed.
End Tendency.

Section Relaxation.
Context {K : numtype} (T : sphfam) (g : grid) (H : exact_on T g).
Notation N := (nspec (g_ntrunc g)).
Notation A := (to_spectral T g).
Notation B := (to_grid T g).
Context (M : bmodel K) (init : state K) (dt : pyval K) (tm : nat -> pyval K) (h rate : R) (ref : mat) (k : nat).
Hypothesis HT : clock init dt tm.
Hypothesis Hh : to_seconds dt = Ok h.
Hypothesis Ph : 0 < h.
Hypothesis Hk : (k < N)%nat.
(** the kind of coefficient vectors an integration stays among *)
Variable P : list C -> Prop.
Hypothesis P_len : forall x, P x -> length x = N.
Hypothesis P_add : forall x y, P x -> P y -> P (sadd x y).
Hypothesis P_scale : forall c x, P x -> P (sscale c x).
Hypothesis P_diff : forall d x, 0 <= d -> P x -> P (apply_diffusion T M g d x).
Notation good := (good g P).
Hypothesis P_tend : forall s, good s -> tends T g M rate ref k P s.
Variable c : R.
Hypothesis Hc : forall x, P x -> (coef (apply_diffusion T M g (2 * h) x) k - coef (A ref) k = RtoC c * (coef x k - coef (A ref) k))%C.

Notation r := (coef (A ref) k).
Lemma relax_first s : good s -> s_time s = tm 0%nat -> exists e, euler T M s dt = Ok e /\ good e
  /\ s_pvs e = apply_diffusion T M g h (sadd (s_pvs s) (sscale h (match pv_tendency_spectral T M s with Ok t => t | Err _ => nil end)))
  /\ (m_coeff M = 0 -> (forall x, P x -> apply_diffusion T M g h x = x) -> (coef (s_pvs e) k - r = RtoC (1 - rate * h) * (coef (s_pvs s) k - r))%C).
Proof.
  intros X E. pose proof X as [G PX]. destruct (P_tend s X) as [t [Et [Pt Ct]]]. destruct HT as [_ [_ [CA _]]].
  unfold euler. rewrite Hh. cbn [bind]. rewrite Et. cbn [bind]. rewrite E, CA. cbn [bind]. eexists. split; [reflexivity|].
  assert (PP : P (sadd (s_pvs s) (sscale h t))) by auto. rewrite G. split; [split; [reflexivity|]; cbn [s_pvs]; apply P_diff; [lra|assumption]|].
  split; [reflexivity|]. intros _ I. cbn [s_pvs]. rewrite I by assumption. pose proof (P_len _ PX). pose proof (P_len _ Pt).
  rewrite coef_sadd, coef_sscale, Ct; rewrite ?sscale_length; try congruence || lia. cring.
Qed.
Lemma relax_next a b n : good a -> good b -> s_time a = tm n -> s_time b = tm (S n) ->
  exists a' b', leapfrog T M a b default_nu = Ok (a', b') /\ good a' /\ good b'
  /\ (coef (s_pvs b') k - r = RtoC c * ((coef (s_pvs a) k - r) - RtoC (2 * (rate * h)) * (coef (s_pvs b) k - r)))%C
  /\ (coef (s_pvs a') k - r = RtoC (1 - 2 * (1 / 5)) * (coef (s_pvs b) k - r) + RtoC (1 / 5) * ((coef (s_pvs a) k - r) + (coef (s_pvs b') k - r)))%C.
Proof.
  intros GA GB TA TB. pose proof GA as [_ PA]. pose proof GB as [Gb PB]. destruct (P_tend b GB) as [t [Et [Pt Ct]]].
  destruct HT as [_ [_ [CA CS]]]. unfold leapfrog. rewrite TA, TB, CS. cbn [bind]. rewrite Hh. cbn [bind]. rewrite Et. cbn [bind]. rewrite CA. cbn [bind].
  rewrite Gb. set (x := sadd (s_pvs a) (sscale (2 * h) t)). assert (PX : P x) by (unfold x; auto).
  set (y := apply_diffusion T M g (2 * h) x). assert (PY : P y) by (apply P_diff; [lra|assumption]).
  do 2 eexists. split; [reflexivity|]. cbn [s_pvs]. split; [split; [reflexivity|]; cbn [s_pvs]; auto|]. split; [split; [reflexivity|]; exact PY|].
  pose proof (P_len _ PA). pose proof (P_len _ PB). pose proof (P_len _ Pt). pose proof (P_len _ PY).
  split.
  - unfold y. rewrite Hc by assumption. unfold x. rewrite coef_sadd, coef_sscale, Ct; rewrite ?sscale_length; try congruence || lia. cring.
  - unfold default_nu. rewrite coef_sadd, !coef_sscale, coef_sadd; rewrite ?sscale_length, ?sadd_length; try congruence || lia. cring.
Qed.

Definition pair (n : nat) : state K * state K := match steps T M init dt n with Ok p => p | Err _ => (init, init) end.
Hypothesis GI : good init.
Lemma pair_ok n : steps T M init dt n = Ok (pair n) /\ good (fst (pair n)) /\ good (snd (pair n)).
Proof.
  induction n as [|n [E [G1 G2]]].
  - destruct (relax_first init GI (proj1 HT)) as [e [Ee [Ge _]]]. unfold pair. cbn [steps]. rewrite Ee. cbn [bind fst snd]. auto.
  - destruct (pair n) as [a b] eqn:Ep. cbn [fst snd] in *. destruct (clock_times T M init dt tm HT n a b E) as [T1 T2].
    destruct (relax_next a b n G1 G2 T1 T2) as [a' [b' [EL [Ga [Gb _]]]]]. unfold pair. cbn [steps]. rewrite E. cbn [bind fst snd]. rewrite EL. auto.
Qed.
Definition da (n : nat) : C := (coef (s_pvs (fst (pair n))) k - r)%C.
Definition db (n : nat) : C := (coef (s_pvs (snd (pair n))) k - r)%C.
Lemma pair_step n : (db (S n) = RtoC c * (da n - RtoC (2 * (rate * h)) * db n))%C
  /\ (da (S n) = RtoC (1 - 2 * (1 / 5)) * db n + RtoC (1 / 5) * (da n + db (S n)))%C.
Proof.
  unfold da, db. destruct (pair_ok n) as [E [G1 G2]]. destruct (pair n) as [a b] eqn:Ep. cbn [fst snd] in *.
  destruct (clock_times T M init dt tm HT n a b E) as [T1 T2]. destruct (relax_next a b n G1 G2 T1 T2) as [a' [b' [EL [_ [_ [Q1 Q2]]]]]].
  assert (EE : pair (S n) = (a', b')) by (unfold pair; cbn [steps]; rewrite E; cbn [bind fst snd]; now rewrite EL). rewrite EE. cbn [fst snd]. auto.
Qed.
Lemma pair_recursion : recursion (rate * h) c (fun n => fst (da n)) (fun n => fst (db n)) /\ recursion (rate * h) c (fun n => snd (da n)) (fun n => snd (db n)).
Proof.
  split; intros n; destruct (pair_step n) as [Q1 Q2]; destruct (da n) as [p q], (db n) as [u v], (db (S n)) as [p' q'], (da (S n)) as [u' v'];
    unfold Cminus, Cplus, Cmult, Copp, RtoC in Q1, Q2; cbn [fst snd] in *; injection Q1 as Q11 Q12; injection Q2 as Q21 Q22; split; lra.
Qed.
Lemma pair_start : m_coeff M = 0 -> (forall x, P x -> apply_diffusion T M g h x = x) -> db 0 = (RtoC (1 - rate * h) * da 0)%C.
Proof.
  intros Z I. destruct (relax_first init GI (proj1 HT)) as [e [Ee [_ [_ Q]]]]. unfold da, db, pair. cbn [steps]. rewrite Ee. cbn [bind fst snd]. now apply Q.
Qed.
Lemma pair_distance n s : trajectory T M init dt n s -> distance_to T ref k s = Cmod (da n).
Proof.
  intros [new E]. destruct (pair_ok n) as [E' [[G _] _]]. unfold distance_to, da. rewrite E in E'. apply Ok_inj in E'. rewrite <- E' in *. cbn [fst] in *. now rewrite G.
Qed.
Lemma pair_trajectory n : trajectory T M init dt n (fst (pair n)).
Proof. destruct (pair_ok n) as [E _]. exists (snd (pair n)). rewrite E. now destruct (pair n). Qed.

(** any contraction of the filtered values *)
Lemma pair_limit m q : 0 <= q < 1 -> 0 <= m -> (forall n, Rabs (fst (da n)) <= m * q ^ n) -> (forall n, Rabs (snd (da n)) <= m * q ^ n) -> approaches T M init dt ref k.
Proof.
  intros Q0 M0 D1 D2 eps He. destruct (pow_lt_1_zero q ltac:(rewrite Rabs_right; lra) (eps / 2 / (m + 1))) as [n0 N0]; [apply Rdiv_lt_0_compat; lra|].
  exists n0. intros n Hn. exists (fst (pair n)). split; [apply pair_trajectory|]. rewrite (pair_distance n) by apply pair_trajectory. specialize (N0 n Hn).
  rewrite Rabs_right in N0 by (apply Rle_ge, pow_le; lra).
  assert (L : m * q ^ n <= eps / 2). { replace (eps / 2) with ((m + 1) * (eps / 2 / (m + 1))) by (field; lra). apply Rmult_le_compat; [assumption|apply pow_le; lra|lra|lra]. }
  specialize (D1 n). specialize (D2 n). replace eps with (2 * (eps / 2)) by field. apply Cmod_parts; lra.
Qed.
(** diffusion alone *)
Lemma recursion_contracts x y a b : x = 0 -> 0 <= y < 1 -> recursion x y a b -> forall n,
  Rabs (a n) <= (Rabs (a 0%nat) + Rabs (b 0%nat)) * ((4 + y) / 5) ^ n /\ Rabs (b n) <= (Rabs (a 0%nat) + Rabs (b 0%nat)) * ((4 + y) / 5) ^ n.
Proof.
  intros X Y Q. pose proof (Rabs_pos (a 0%nat)). pose proof (Rabs_pos (b 0%nat)). induction n as [|n [IA IB]]; [cbn; lra|].
  destruct (Q n) as [Eb Ea]. rewrite X in Eb. replace (2 * 0 * b n) with 0 in Eb by ring. rewrite Rminus_0_r in Eb. rewrite Eb in Ea.
  replace (_ + 1 / 5 * _) with ((1 + y) / 5 * a n + 3 / 5 * b n) in Ea by field. set (m := Rabs (a 0%nat) + Rabs (b 0%nat)) in *. set (e := m * ((4 + y) / 5) ^ n) in *.
  cbn [pow]. replace (m * ((4 + y) / 5 * ((4 + y) / 5) ^ n)) with ((4 + y) / 5 * e) by (unfold e; ring).
  pose proof (Rabs_pos (a n)). split.
  - rewrite Ea. eapply Rle_trans; [apply Rabs_triang|]. rewrite !Rabs_mult, (Rabs_right ((1 + y) / 5)), (Rabs_right (3 / 5)) by lra. nra.
  - rewrite Eb, Rabs_mult, Rabs_right by lra. nra.
Qed.
Lemma free_approaches : rate = 0 -> 0 <= c < 1 -> approaches T M init dt ref k.
Proof.
  intros R0 C1. destruct pair_recursion as [Q1 Q2]. assert (X : rate * h = 0) by (rewrite R0; ring).
  pose proof (recursion_contracts _ _ _ _ X C1 Q1) as D1. pose proof (recursion_contracts _ _ _ _ X C1 Q2) as D2. cbv beta in D1, D2.
  assert (PW : forall n, 0 <= ((4 + c) / 5) ^ n) by (intros; apply pow_le; lra).
  set (m1 := Rabs (fst (da 0)) + Rabs (fst (db 0))) in *. set (m2 := Rabs (snd (da 0)) + Rabs (snd (db 0))) in *.
  assert (0 <= m1) by (unfold m1; pose proof (Rabs_pos (fst (da 0))); pose proof (Rabs_pos (fst (db 0))); lra).
  assert (0 <= m2) by (unfold m2; pose proof (Rabs_pos (snd (da 0))); pose proof (Rabs_pos (snd (db 0))); lra).
  apply (pair_limit (m1 + m2) ((4 + c) / 5)); [lra|lra|..]; intros n; specialize (PW n).
  - destruct (D1 n) as [D _]. nra.
  - destruct (D2 n) as [D _]. nra.
Qed.
Lemma relax_approaches : 0 < c <= 1 -> 0 < rate * h -> rate * h < 1 / 3 -> approaches T M init dt ref k.
Proof.
  intros C1 R0 R1 eps He. destruct pair_recursion as [Q1 Q2].
  destruct (decay _ _ R0 C1 _ _ Q1 R1) as [m1 [q1 [B1 [M1 D1]]]]. destruct (decay _ _ R0 C1 _ _ Q2 R1) as [m2 [q2 [B2 [M2 D2]]]].
  destruct (pow_lt_1_zero q1 ltac:(rewrite Rabs_right; lra) (eps / 2 / (m1 + 1))) as [n1 N1]; [apply Rdiv_lt_0_compat; lra|].
  destruct (pow_lt_1_zero q2 ltac:(rewrite Rabs_right; lra) (eps / 2 / (m2 + 1))) as [n2 N2]; [apply Rdiv_lt_0_compat; lra|].
  exists (n1 + n2)%nat. intros n Hn. exists (fst (pair n)). split; [apply pair_trajectory|]. rewrite (pair_distance n) by apply pair_trajectory.
  assert (F : forall m q x, 0 <= q -> 0 <= m -> Rabs (q ^ n) < eps / 2 / (m + 1) -> Rabs x <= m * q ^ n -> Rabs x <= eps / 2).
  { intros m q x Hq Hm L X. rewrite Rabs_right in L by (apply Rle_ge, pow_le; assumption). assert (m * q ^ n <= (m + 1) * (eps / 2 / (m + 1))).
    { apply Rmult_le_compat; [assumption|now apply pow_le|lra|lra]. }
    replace ((m + 1) * (eps / 2 / (m + 1))) with (eps / 2) in H0 by (field; lra). lra. }
  replace eps with (2 * (eps / 2)) by field. apply Cmod_parts.
  - refine (F m1 q1 _ _ _ _ (D1 n)); [lra|lra|]. apply N1. lia.
  - refine (F m2 q2 _ _ _ _ (D2 n)); [lra|lra|]. apply N2. lia.
Qed.
(** with x = 3/2 and no diffusion the filtered values do not see the growing mode *)
Lemma relax_exception : c = 1 -> rate * h = 3 / 2 -> approaches T M init dt ref k.
Proof.
  intros C1 R1 eps He. destruct pair_recursion as [Q1 Q2].
  assert (F : forall a b, recursion (rate * h) c a b -> forall n, a n = a 0%nat * (2 / 5) ^ n).
  { intros a b Q. induction n as [|n IH]; [cbn; ring|]. destruct (Q n) as [Eb Ea]. rewrite Ea, Eb, C1, R1. cbn [pow]. rewrite IH. field. }
  set (m := Rabs (fst (da 0)) + Rabs (snd (da 0)) + 1). pose proof (Rabs_pos (fst (da 0))). pose proof (Rabs_pos (snd (da 0))).
  destruct (pow_lt_1_zero (2 / 5) ltac:(rewrite Rabs_right; lra) (eps / 2 / m)) as [n0 N0]; [apply Rdiv_lt_0_compat; unfold m; lra|].
  exists n0. intros n Hn. exists (fst (pair n)). split; [apply pair_trajectory|]. rewrite (pair_distance n) by apply pair_trajectory.
  specialize (N0 n Hn). assert (G : forall x, Rabs x <= m -> Rabs (x * (2 / 5) ^ n) <= eps / 2).
  { intros x Hx. rewrite Rabs_mult. replace (eps / 2) with (m * (eps / 2 / m)) by (field; unfold m; lra). apply Rmult_le_compat; auto using Rabs_pos; lra. }
  replace eps with (2 * (eps / 2)) by field. apply Cmod_parts.
  - rewrite (F _ _ Q1 n). apply G. unfold m. lra.
  - rewrite (F _ _ Q2 n). apply G. unfold m. lra.
Qed.
Lemma relax_away : m_coeff M = 0 -> (forall x, P x -> apply_diffusion T M g h x = x) -> c = 1 -> 1 / 3 <= rate * h -> rate * h <> 3 / 2 ->
  coef (s_pvs init) k <> r -> stays_away T M init dt ref k.
Proof.
  intros Z I C1 R1 R2 D. destruct pair_recursion as [Q1 Q2]. pose proof (pair_start Z I) as S0.
  assert (EI : fst (pair 0) = init). { destruct (relax_first init GI (proj1 HT)) as [e [Ee _]]. unfold pair. cbn [steps]. rewrite Ee. reflexivity. }
  assert (S1 : fst (db 0) = (1 - rate * h) * fst (da 0)) by (rewrite S0; unfold Cmult, RtoC; cbn [fst snd]; ring).
  assert (S2 : snd (db 0) = (1 - rate * h) * snd (da 0)) by (rewrite S0; unfold Cmult, RtoC; cbn [fst snd]; ring).
  assert (R0 : 0 < rate * h) by lra. assert (CB : 0 < c <= 1) by lra.
  assert (N0 : fst (da 0) <> 0 \/ snd (da 0) <> 0).
  { unfold da in *. rewrite EI in *. destruct (coef (s_pvs init) k) as [p q], r as [u v]. unfold Cminus, Cplus, Copp in *. cbn [fst snd] in *.
    destruct (Req_dec p u) as [->|]; [|left; lra]. destruct (Req_dec q v) as [->|]; [now contradiction D|right; lra]. }
  destruct N0 as [N0|N0].
  - destruct (growth _ _ R0 CB _ _ Q1 C1 R1 S1 N0 R2) as [m [n0 [M0 G]]]. exists m, n0. split; [exact M0|]. intros n Hn. exists (fst (pair n)). split; [apply pair_trajectory|].
    rewrite (pair_distance n) by apply pair_trajectory. apply Cmod_lower. left. auto.
  - destruct (growth _ _ R0 CB _ _ Q2 C1 R1 S2 N0 R2) as [m [n0 [M0 G]]]. exists m, n0. split; [exact M0|]. intros n Hn. exists (fst (pair n)). split; [apply pair_trajectory|].
    rewrite (pair_distance n) by apply pair_trajectory. apply Cmod_lower. right. auto.
Qed.
End Relaxation.

Section Cases.
Context {K : numtype} (res rs om : R) (nt : option Z) (T : sphfam) (g : grid) (Hg : mk_grid res rs om nt = Ok g) (H : exact_on T g).
Notation N := (nspec (g_ntrunc g)).
Notation A := (to_spectral T g).
Notation B := (to_grid T g).
Context (M : bmodel K) (init : state K) (dt : pyval K) (tm : nat -> pyval K) (h rate : R) (ref : mat).
Hypothesis HT : clock init dt tm.
Hypothesis Hh : to_seconds dt = Ok h.
Hypothesis Ph : 0 < h.
Hypothesis HS : shaped (g_nlat g) (g_nlon g) ref.
Notation relaxing := (m_rhs M = Some (call T (PRelax rate (FMat ref)))).

Definition plain (x : list C) : Prop := length x = N /\ A (B x) = x.
Lemma plain_add x y : plain x -> plain y -> plain (sadd x y).
Proof. intros [L E] [L' E']. split; [rewrite sadd_length; congruence|now apply (resolved_add T g H)]. Qed.
Lemma plain_scale c x : plain x -> plain (sscale c x).
Proof.
  intros [L E]. split; [now rewrite sscale_length|]. assert (Q : sscale c x = sadd (sscale c x) (sscale 0 x)).
  { rewrite (scale_0 x N L). symmetry. apply add_zeros. now rewrite sscale_length. }
  rewrite Q. now apply (resolved_lin T g H).
Qed.
Lemma plain_sub x y : plain x -> plain y -> plain (ssub x y).
Proof. intros [L E] [L' E']. split; [rewrite ssub_length; congruence|now apply (resolved_sub T g H)]. Qed.
Lemma plain_field f : shaped (g_nlat g) (g_nlon g) f -> plain (A f).
Proof. intros S. split; [apply (A_len T g H)|now apply (A_resolved T g H)]. Qed.
Lemma no_diffusion d x : m_coeff M = 0 -> length x = N -> apply_diffusion T M g d x = x.
Proof. intros E L. apply (zonal_neutral T g H (calc_rs_ne _ _ _ _ _ Hg)); auto. Qed.
Lemma plain_diffusion d x : m_coeff M = 0 \/ calculus_on T g /\ 0 <= m_coeff M -> (forall bg, m_bg M = Some bg -> shaped (g_nlat g) (g_nlon g) bg) ->
  0 <= d -> plain x -> plain (apply_diffusion T M g d x).
Proof.
  intros [E|[HC E]] HB Hd X; [rewrite no_diffusion by (assumption || apply X); assumption|].
  assert (Q : 0 <= d * m_coeff M) by now apply Rmult_le_pos.
  assert (D : forall y, plain y -> plain (solve_diffusion_spectral g y (m_coeff M) d (m_order M))).
  { intros y [L Y]. split; [now apply diffusion_length|]. now apply (diffusion_res _ _ _ _ _ _ Hg HC). }
  unfold apply_diffusion. destruct (m_bg M) as [bg|]; [|auto]. specialize (HB bg eq_refl). auto using plain_add, plain_sub, plain_field.
Qed.

(** the factor of a diffusion step towards the reference *)
Lemma diffusion_factor k : (k < N)%nat -> m_coeff M = 0 \/ 0 <= m_coeff M /\ m_bg M = Some ref ->
  exists c, 0 < c <= 1 /\ (m_coeff M = 0 -> c = 1) /\ forall x, length x = N ->
  (coef (apply_diffusion T M g (2 * h) x) k - coef (A ref) k = RtoC c * (coef x k - coef (A ref) k))%C.
Proof.
  intros Hk HD. destruct (Req_dec (m_coeff M) 0) as [E|E].
  - exists 1. split; [lra|]. split; [reflexivity|]. intros x L. rewrite no_diffusion by assumption. cring.
  - destruct HD as [|[C0 HB]]; [contradiction|]. set (e := eigenvalue (g_rsphere g) (degree (g_ntrunc g) k) ^ m_order M).
    assert (0 <= e) by (apply pow_le, eigenvalue_nonneg, (calc_rs _ _ _ _ _ Hg)). set (w := 1 + 2 * h * m_coeff M * e).
    assert (1 <= w). { unfold w. assert (0 <= 2 * h * m_coeff M * e) by (apply Rmult_le_pos; [nra|assumption]). lra. }
    exists (/ w). split. { split; [apply Rinv_0_lt_compat; lra|]. rewrite <- Rinv_1. apply Rinv_le_contravar; lra. }
    split; [intros; contradiction|]. intros x L. pose proof (A_len T g H ref) as LA.
    pose proof (apply_diffusion_length T g H M (2 * h) x L) as LD.
    pose proof (bg_deviation T g H M ref (2 * h) x HB L) as Q. apply (f_equal (fun y => coef y k)) in Q.
    rewrite coef_ssub in Q by congruence || lia. rewrite Q. unfold apply_diffusion. cbn [m_bg m_coeff m_order].
    rewrite diffusion_coef; [|apply (calc_rs_ne _ _ _ _ _ Hg)|rewrite ssub_length; congruence|assumption]. fold e. fold w.
    rewrite coef_ssub by congruence || lia. rewrite RtoC_inv by lra. unfold Cdiv. ring.
Qed.

(** the global mean *)
Hypothesis GI : s_grid init = g.
Hypothesis PI : plain (s_pvs init).
Section Mean.
Hypothesis HF : resolved_divergence T g.
Hypothesis HB : forall bg, m_bg M = Some bg -> shaped (g_nlat g) (g_nlon g) bg.
Lemma plain_flux (s : state K) : s_grid s = g -> plain (s_pvs s) -> plain (s_pv_flux_spectral T s) /\ coef (s_pv_flux_spectral T s) 0 = RtoC 0.
Proof.
  intros G _. split; [|now apply (flux_mean T g H)]. split; [now apply (flux_length T g H)|].
  unfold s_pv_flux_spectral, divergence_spectral, vorticity_divergence_spectral. rewrite G. apply HF; apply shaped_mmul; unfold s_pv, s_u, s_v, s_invert_pv, wind; rewrite G; try apply (B_shape T g H); apply (et_wind_shape _ _ _ _ H).
Qed.
Lemma plain_tends s : relaxing -> good g plain s -> tends T g M rate ref 0 plain s.
Proof.
  intros HM. apply (relax_tendency T g H M rate ref 0 (nspec_pos _) plain); auto using plain_add, plain_scale, plain_field, plain_flux.
  - now intros x [L _].
  - now intros x [_ E].
Qed.
Lemma mean_approaches : relaxing -> m_coeff M = 0 \/ calculus_on T g /\ 0 <= m_coeff M /\ (1 <= m_order M)%nat ->
  0 < rate * h -> rate * h < 1 / 3 -> approaches T M init dt ref 0.
Proof.
  intros HM HD R0 R1. apply (relax_approaches T g M init dt tm h rate ref 0 HT Hh Ph (nspec_pos _) plain) with (c := 1); auto using plain_add, plain_scale, plain_tends; try lra.
  - now intros x [L _].
  - intros d x Hd X. apply plain_diffusion; tauto.
  - intros x [L _]. destruct HD as [E|[_ [_ O]]]; [rewrite no_diffusion by assumption; cring|]. rewrite (apply_diffusion_mean T g H (calc_rs_ne _ _ _ _ _ Hg)) by assumption. cring.
  - now split.
Qed.
Lemma mean_away : relaxing -> m_coeff M = 0 -> 1 / 3 <= rate * h -> rate * h <> 3 / 2 -> coef (s_pvs init) 0 <> coef (A ref) 0 -> stays_away T M init dt ref 0.
Proof.
  intros HM HD R0 R1 D. apply (relax_away T g M init dt tm h rate ref 0 HT Hh Ph (nspec_pos _) plain) with (c := 1); auto using plain_add, plain_scale, plain_tends; try lra.
  - now intros x [L _].
  - intros d x Hd X. apply plain_diffusion; tauto.
  - intros x [L _]. rewrite no_diffusion by assumption. cring.
  - now split.
  - intros x [L _]. now apply no_diffusion.
Qed.
End Mean.

(** zonal flow *)
Section ZonalFlow.
Hypothesis Hn : (g_ntrunc g < g_nlon g)%nat.
Hypothesis HR : rotates T g.
Hypothesis HV : reverses T g.
Hypothesis HU : zonally_uniform (g_nlat g) (g_nlon g) ref.
Hypothesis RI : rotated init = init.
Definition zonalx (x : list C) : Prop := plain x /\ weigh (rw g) x = x.
Lemma zonal_len x : zonalx x -> length x = N. Proof. now intros [[L _] _]. Qed.
Lemma zonal_res x : zonalx x -> A (B x) = x. Proof. now intros [[_ E] _]. Qed.
Lemma zonal_add x y : zonalx x -> zonalx y -> zonalx (sadd x y).
Proof. intros [X E] [Y F]. split; [now apply plain_add|]. rewrite weigh_add; [congruence|]. destruct X, Y. congruence. Qed.
Lemma zonal_scale c x : zonalx x -> zonalx (sscale c x).
Proof. intros [X E]. split; [now apply plain_scale|]. rewrite weigh_scale. congruence. Qed.
Lemma zonal_subx x y : zonalx x -> zonalx y -> zonalx (ssub x y).
Proof. intros [X E] [Y F]. split; [now apply plain_sub|]. rewrite weigh_sub; [congruence|]. destruct X, Y. congruence. Qed.
Lemma zonal_field f : zonally_uniform (g_nlat g) (g_nlon g) f -> zonalx (A f).
Proof.
  intros U. split; [apply plain_field, U|].
  pose proof (zonal_init T g Hn HR f (mkState g (VNum (n_zero K)) (A f) : state K) U eq_refl eq_refl) as Q. apply rotated_fixed in Q. exact Q.
Qed.
Lemma zonal_flux (s : state K) k : s_grid s = g -> zonalx (s_pvs s) -> zonalx (s_pv_flux_spectral T s) /\ coef (s_pv_flux_spectral T s) k = RtoC 0.
Proof.
  intros G X. assert (RS : rotated s = s) by (apply rotated_fixed; rewrite G; apply X).
  destruct (zonal_wind T g H Hn HR s G (zonal_len _ X) RS) as [U _].
  assert (E : s_pvs s = A (s_pv T s)) by (unfold s_pv; rewrite G; symmetry; now apply zonal_res).
  rewrite (zonal_no_flux T g H Hn HR HV (s_pv T s) s U E G). split; [|apply coef_zero].
  assert (Q : repeat (RtoC 0) N = sscale 0 (s_pvs s)) by (symmetry; now apply scale_0, zonal_len). rewrite Q. now apply zonal_scale.
Qed.
Lemma zonal_diffusion d x : m_coeff M = 0 \/ calculus_on T g /\ 0 <= m_coeff M /\ (forall bg, m_bg M = Some bg -> bg = ref) -> 0 <= d -> zonalx x -> zonalx (apply_diffusion T M g d x).
Proof.
  intros HD Hd X. destruct (Req_dec (m_coeff M) 0) as [E|E]; [rewrite no_diffusion; auto using zonal_len|].
  destruct HD as [|[HC [C0 HB]]]; [contradiction|]. pose proof (zonal_field ref HU) as XR. pose proof (zonal_subx _ _ X XR) as XS.
  split. { apply plain_diffusion; [tauto| |assumption|apply X]. intros bg Eb. now rewrite (HB bg Eb). }
  unfold apply_diffusion. destruct (m_bg M) as [bg|].
  - rewrite (HB bg eq_refl). rewrite weigh_add.
    + rewrite <- weigh_diffusion by now apply zonal_len. now rewrite (proj2 XS), (proj2 XR).
    + rewrite diffusion_length by now apply zonal_len. symmetry. now apply zonal_len.
  - rewrite <- weigh_diffusion by now apply zonal_len. now rewrite (proj2 X).
Qed.
Lemma init_zonal : good g zonalx init.
Proof. split; [exact GI|]. split; [exact PI|]. apply rotated_fixed in RI. rewrite GI in RI. exact RI. Qed.
Lemma zonal_tends k s : (k < N)%nat -> relaxing -> good g zonalx s -> tends T g M rate ref k zonalx s.
Proof.
  intros Hk HM. apply (relax_tendency T g H M rate ref k Hk zonalx); auto using zonal_add, zonal_scale, zonal_field, zonal_flux, zonal_len, zonal_res.
Qed.
Lemma zonal_free k s : (k < N)%nat -> rate = 0 -> m_rhs M = None -> good g zonalx s -> tends T g M rate ref k zonalx s.
Proof.
  intros Hk Hr HM. apply (free_tendency T g M rate ref k Hk zonalx); auto using zonal_scale, zonal_flux, zonal_len.
Qed.
Lemma zonal_approaches k : relaxing -> (k < N)%nat -> m_coeff M = 0 \/ calculus_on T g /\ 0 <= m_coeff M /\ m_bg M = Some ref ->
  0 < rate * h -> rate * h < 1 / 3 -> approaches T M init dt ref k.
Proof.
  intros HM Hk HD R0 R1. destruct (diffusion_factor k Hk) as [c [C1 [_ HC]]]; [tauto|].
  apply (relax_approaches T g M init dt tm h rate ref k HT Hh Ph Hk zonalx) with (c := c); auto using zonal_add, zonal_scale, zonal_len, zonal_tends, init_zonal.
  intros d x Hd X. apply zonal_diffusion; auto. destruct HD as [|[? [? E]]]; [now left|right]. split; [assumption|]. split; [assumption|]. intros bg Eb. congruence.
Qed.
Lemma zonal_exception k : relaxing -> (k < N)%nat -> m_coeff M = 0 -> rate * h = 3 / 2 -> approaches T M init dt ref k.
Proof.
  intros HM Hk HD R0.
  apply (relax_exception T g M init dt tm h rate ref k HT Hh Ph Hk zonalx) with (c := 1); auto using zonal_add, zonal_scale, zonal_len, zonal_tends, init_zonal, zonal_diffusion.
  intros x X. rewrite no_diffusion by auto using zonal_len. cring.
Qed.
Lemma zonal_away k : relaxing -> (k < N)%nat -> m_coeff M = 0 -> 1 / 3 <= rate * h -> rate * h <> 3 / 2 -> coef (s_pvs init) k <> coef (A ref) k -> stays_away T M init dt ref k.
Proof.
  intros HM Hk HD R0 R1 D.
  apply (relax_away T g M init dt tm h rate ref k HT Hh Ph Hk zonalx) with (c := 1); auto using zonal_add, zonal_scale, zonal_len, zonal_tends, init_zonal, zonal_diffusion.
  - intros x X. rewrite no_diffusion by auto using zonal_len. cring.
  - intros x X. auto using no_diffusion, zonal_len.
Qed.
(** without forcing, towards the background or zero *)
Lemma zonal_diffuses k : rate = 0 -> m_rhs M = None -> (k < N)%nat -> calculus_on T g -> 0 < m_coeff M ->
  m_bg M = Some ref \/ m_bg M = None /\ coef (A ref) k = RtoC 0 -> (1 <= degree (g_ntrunc g) k)%nat \/ m_order M = 0%nat -> approaches T M init dt ref k.
Proof.
  intros Hr HM Hk HC HP HB HD. set (e := eigenvalue (g_rsphere g) (degree (g_ntrunc g) k) ^ m_order M).
  assert (E0 : 0 < e). { unfold e. destruct HD as [D|D]; [apply pow_lt, eigenvalue_pos; [apply (calc_rs _ _ _ _ _ Hg)|lia]|rewrite D; cbn; lra]. }
  set (w := 1 + 2 * h * m_coeff M * e). assert (1 < w). { unfold w. assert (0 < 2 * h * m_coeff M * e) by (repeat apply Rmult_lt_0_compat; lra). lra. }
  assert (HN : forall bg, m_bg M = Some bg -> bg = ref) by (intros bg E; destruct HB as [B|[B _]]; congruence).
  assert (ZD : forall d x, 0 <= d -> zonalx x -> zonalx (apply_diffusion T M g d x)).
  { intros d x Hd X. apply zonal_diffusion; [|assumption|assumption]. right. split; [exact HC|]. split; [lra|exact HN]. }
  apply (free_approaches T g M init dt tm h rate ref k HT Hh Ph Hk zonalx) with (c := / w); auto using zonal_add, zonal_scale, zonal_len, zonal_free, init_zonal.
  2:{ assert (0 < / w) by (apply Rinv_0_lt_compat; lra). split; [lra|]. rewrite <- Rinv_1. apply Rinv_lt_contravar; lra. }
  intros x X. pose proof (zonal_len x X) as L. pose proof (A_len T g H ref) as LA. destruct HB as [B|[B Z]].
  - pose proof (apply_diffusion_length T g H M (2 * h) x L) as LD.
    pose proof (bg_deviation T g H M ref (2 * h) x B L) as Q. apply (f_equal (fun y => coef y k)) in Q.
    rewrite coef_ssub in Q by congruence || lia. rewrite Q. unfold apply_diffusion. cbn [m_bg m_coeff m_order].
    rewrite diffusion_coef; [|apply (calc_rs_ne _ _ _ _ _ Hg)|rewrite ssub_length; congruence|assumption]. fold e. fold w.
    rewrite coef_ssub by congruence || lia. rewrite RtoC_inv by lra. unfold Cdiv. ring.
  - unfold apply_diffusion. rewrite B, Z. rewrite diffusion_coef; [|apply (calc_rs_ne _ _ _ _ _ Hg)|assumption|assumption]. fold e. fold w.
    rewrite RtoC_inv by lra. unfold Cdiv. ring.
Qed.
End ZonalFlow.
End Cases.
