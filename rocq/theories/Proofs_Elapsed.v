(** Elapsed time: proofs (C145). *)
From Verif Require Import Base Model_Grid Model_Time Model_Spectral Model_State Model_Run.
From Verif Require Import Spec_Run Spec_Elapsed Proofs_Base Proofs_Run.
From Coq Require Import List Lia.
Import ListNotations.

Section Calendar.
Context {K : numtype} (T : sphfam) (d0 : Z) (A B : bmodel K).
Hypothesis HAB : on_calendar d0 A B.

Lemma cal_tendency s : elapsed s -> pv_tendency_spectral T B (dated d0 s) = pv_tendency_spectral T A s.
Proof.
  intros H. unfold pv_tendency_spectral. change (s_pv_flux_spectral T (dated d0 s)) with (s_pv_flux_spectral T s).
  destruct HAB as [_ [_ [_ HF]]]. destruct (m_rhs A) as [f|], (m_rhs B) as [h|]; try contradiction; [|reflexivity]. now rewrite HF.
Qed.
Lemma cal_diffusion g d x : apply_diffusion T B g d x = apply_diffusion T A g d x.
Proof. destruct HAB as [H1 [H2 [H3 _]]]. unfold apply_diffusion. now rewrite H1, H2, H3. Qed.
Lemma cal_euler s us : elapsed s -> (exists e, euler T A s (VDelta us) = Ok e /\ euler T B (dated d0 s) (VDelta us) = Ok (dated d0 e) /\ elapsed e)
  \/ exists x, euler T A s (VDelta us) = Err x /\ euler T B (dated d0 s) (VDelta us) = Err x.
Proof.
  intros H. pose proof H as [t Et]. unfold euler. cbn [to_seconds bind]. rewrite (cal_tendency s H). destruct (pv_tendency_spectral T A s) as [y|x]; cbn [bind]; [|right; eauto].
  unfold dated at 1. cbn [s_time s_grid s_pvs]. rewrite Et. cbn [date_of py_add bind]. left. eexists. split; [reflexivity|]. split; [|eexists; reflexivity]. rewrite cal_diffusion. unfold dated. cbn [s_time s_grid s_pvs date_of]. now rewrite Z.add_assoc.
Qed.
Lemma cal_leapfrog a b nu : elapsed a -> elapsed b ->
  (exists x y, leapfrog T A a b nu = Ok (x, y) /\ leapfrog T B (dated d0 a) (dated d0 b) nu = Ok (dated d0 x, dated d0 y) /\ elapsed x /\ elapsed y)
  \/ exists e, leapfrog T A a b nu = Err e /\ leapfrog T B (dated d0 a) (dated d0 b) nu = Err e.
Proof.
  intros Ha Hb. pose proof Ha as [t Et]. pose proof Hb as [u Eu]. unfold leapfrog. rewrite (cal_tendency b Hb).
  assert (Ft : s_time (dated d0 a) = VDate (d0 + t)) by (unfold dated; cbn [s_time]; now rewrite Et). assert (Fu : s_time (dated d0 b) = VDate (d0 + u)) by (unfold dated; cbn [s_time]; now rewrite Eu).
  rewrite Ft, Fu, Et, Eu. cbn [py_sub bind to_seconds].
  replace (d0 + u - (d0 + t))%Z with (u - t)%Z by lia. destruct (pv_tendency_spectral T A b) as [z|e]; cbn [bind]; [|right; eauto].
  cbn [py_add bind]. left. do 2 eexists. split; [reflexivity|]. split; [|split; [exists u; reflexivity|eexists; reflexivity]].
  rewrite cal_diffusion. unfold dated. cbn [s_time s_grid s_pvs date_of]. now rewrite Z.add_assoc.
Qed.
Lemma cal_lt (a : state K) tend : elapsed a -> py_lt (s_time (dated d0 a)) (VDate (d0 + tend)) = py_lt (s_time a) (VDelta tend)
  /\ py_lt (VDate (d0 + tend)) (s_time (dated d0 a)) = py_lt (VDelta tend) (s_time a).
Proof. intros [t E]. unfold dated. cbn [s_time]. rewrite E. cbn [date_of py_lt]. split; f_equal; destruct (Z.ltb_spec t tend), (Z.ltb_spec tend t), (Z.ltb_spec (d0 + t) (d0 + tend)), (Z.ltb_spec (d0 + tend) (d0 + t)); try reflexivity; lia. Qed.
Lemma cal_loop tend se : forall fuel a b l ts, elapsed a -> elapsed b -> (exists x, ts = VNum x) \/ (exists x, py_lt (VNum (n_zero K)) se = Err x) ->
  run_loop T B fuel (VDate (d0 + tend)) se (dated d0 a) (dated d0 b) (map (dated d0) l) ts
  = match run_loop T A fuel (VDelta tend) se a b l ts with Ok (f, l') => Ok (dated d0 f, map (dated d0) l') | Err e => Err e end.
Proof.
  induction fuel as [|fuel IH]; intros a b l ts Ha Hb HS; [reflexivity|]. cbn [run_loop]. rewrite (proj1 (cal_lt a tend Ha)).
  destruct (py_lt (s_time a) (VDelta tend)) as [[|]|]; cbn [bind]; [|reflexivity|reflexivity].
  destruct (cal_leapfrog a b default_nu Ha Hb) as [[x [y [E [E' [Hx Hy]]]]]|[e [E E']]]; rewrite E, E'; cbn [bind]; [|reflexivity].
  destruct (py_lt (VNum (n_zero K)) se) as [[|]|]; cbn [bind]; [|now apply IH|reflexivity]. destruct HS as [[q ->]|[q V]]; [|discriminate]. destruct Hx as [u Eu]. unfold dated at 1. cbn [s_time]. rewrite Eu. reflexivity.
Qed.
Lemma cal_statelist l : statelist_of (map (dated d0) l) = match statelist_of l with Ok l' => Ok (map (dated (K := K) d0) l') | Err e => Err e end.
Proof.
  destruct l as [|s l]; [reflexivity|].
  assert (E : forallb (fun s' => grid_eqb (s_grid (dated d0 s)) (s_grid s')) (map (dated d0) (s :: l)) = forallb (fun s' => grid_eqb (s_grid s) (s_grid s')) (s :: l)).
  { generalize (s :: l). intros q. induction q as [|x q IH]; [reflexivity|]. cbn [map forallb]. rewrite <- IH. reflexivity. }
  change (statelist_of (map (dated d0) (s :: l))) with (passert (forallb (fun s' => grid_eqb (s_grid (dated d0 s)) (s_grid s')) (map (dated d0) (s :: l))) (Ok (map (dated d0) (s :: l)))).
  rewrite E. unfold statelist_of, passert. destruct (forallb (fun s' => grid_eqb (s_grid s) (s_grid s')) (s :: l)); reflexivity.
Qed.
Lemma cal_run fuel s us tend se : elapsed s ->
  run T B fuel (dated d0 s) (VDelta us) (VDate (d0 + tend)) se = dated_result d0 (run T A fuel s (VDelta us) (VDelta tend) se).
Proof.
  intros H. unfold run. rewrite (proj2 (cal_lt s tend H)). destruct (py_lt (VDelta tend) (s_time s)) as [[|]|]; cbn [bind]; [reflexivity| |reflexivity].
  destruct (cal_euler s us H) as [[e [E [E' He]]]|[x [E E']]]; rewrite E, E'; cbn [bind]; [|reflexivity].
  change [dated d0 s] with (map (dated d0) [s]). rewrite cal_loop by (auto; (destruct se as [x|x|x]; [left; eauto|right; eexists; reflexivity|right; eexists; reflexivity])).
  destruct (run_loop T A fuel (VDelta tend) se s e [s] se) as [[f l]|x]; cbn [bind]; [|reflexivity]. rewrite cal_statelist. destruct (statelist_of l); reflexivity.
Qed.
Lemma cal_steps s us n : elapsed s -> (exists a b, steps T A s (VDelta us) n = Ok (a, b) /\ steps T B (dated d0 s) (VDelta us) n = Ok (dated d0 a, dated d0 b) /\ elapsed a /\ elapsed b)
  \/ exists x, steps T A s (VDelta us) n = Err x /\ steps T B (dated d0 s) (VDelta us) n = Err x.
Proof.
  intros H. induction n as [|n IH]; cbn [steps].
  - destruct (cal_euler s us H) as [[e [E [E' He]]]|[x [E E']]]; rewrite E, E'; cbn [bind]; [left|right]; eauto 8.
  - destruct IH as [[a [b [E [E' [Ha Hb]]]]]|[x [E E']]]; rewrite E, E'; cbn [bind fst snd]; [|right; eauto]. destruct (cal_leapfrog a b default_nu Ha Hb) as [[x [y [F [F' [Hx Hy]]]]]|[e [F F']]]; rewrite F, F'; [left|right]; eauto 8.
Qed.
End Calendar.

(** a forcing that reads elapsed time, on the calendar *)
Definition undated {K} (d0 : Z) (s : state K) : state K := mkState (s_grid s) (match s_time s with VDate d => VDelta (d - d0) | t => t end) (s_pvs s).
Lemma undated_dated {K} d0 (s : state K) : elapsed s -> undated d0 (dated d0 s) = s.
Proof. intros [t E]. destruct s as [g tm x]. cbn in E. subst tm. unfold undated, dated. cbn. f_equal. f_equal. lia. Qed.
Definition moved {K} (d0 : Z) (A : bmodel K) : bmodel K := mkModel (match m_rhs A with Some f => Some (fun s => f (undated d0 s)) | None => None end) (m_order A) (m_coeff A) (m_bg A).
Lemma moved_calendar {K} d0 (A : bmodel K) : on_calendar d0 A (moved d0 A).
Proof. unfold on_calendar, moved. cbn [m_order m_coeff m_bg m_rhs]. do 3 (split; [reflexivity|]). destruct (m_rhs A) as [f|]; [|exact I]. intros s H. now rewrite undated_dated. Qed.
(** the clock of elapsed time *)
Lemma clock_delta {K} (init : state K) t us : s_time init = VDelta t -> clock init (VDelta us) (fun n => VDelta (t + Z.of_nat n * us)).
Proof. intros H. split; [rewrite H; f_equal; lia|]. split; [now exists (IZR us / 1000000)%R|]. split; intros n; cbn -[Z.of_nat]; do 2 f_equal; lia. Qed.
