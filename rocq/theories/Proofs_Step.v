(** Integrations: conservation, motionless states, step structure, diffusion background. *)
From Coq Require Export String.
From Verif Require Import Base Model_Grid Model_Time Model_Spectral Model_State Model_Run Model_Init.
From Verif Require Import Spec_Grid Spec_Spectral Spec_State Spec_Instance Spec_Run.
From Verif Require Import Proofs_Base Proofs_Grid Proofs_Spectral Proofs_Instance Proofs_State Proofs_Run Proofs_Times.
From Coquelicot Require Import Coquelicot.
From Coq Require Import List Lia Lra.
Open Scope R_scope.

Ltac slen := repeat first [rewrite sadd_length | rewrite ssub_length | rewrite sscale_length | rewrite sopp_length | rewrite repeat_length].

Lemma sub_add x y : length x = length y -> sadd (ssub x y) y = x.
Proof.
  intros H. assert (L : length (ssub x y) = length y) by now rewrite ssub_length.
  apply spec_ext; [rewrite sadd_length by exact L; now apply ssub_length|]. rewrite sadd_length by exact L.
  intros k Hk. rewrite coef_sadd by auto. rewrite coef_ssub by (auto; lia). ring.
Qed.
Lemma add_sub x y : length x = length y -> ssub (sadd x y) y = x.
Proof.
  intros H. assert (L : length (sadd x y) = length y) by now rewrite sadd_length.
  apply spec_ext; [rewrite ssub_length by exact L; now apply sadd_length|]. rewrite ssub_length by exact L.
  intros k Hk. rewrite coef_ssub by auto. rewrite coef_sadd by (auto; lia). ring.
Qed.
Lemma sub_self x : ssub x x = repeat (RtoC 0) (length x).
Proof.
  apply spec_ext; [now rewrite ssub_length, repeat_length|]. rewrite ssub_length by auto. intros k Hk.
  rewrite coef_ssub by auto. rewrite coef_zero. ring.
Qed.
Lemma add_zeros x n : length x = n -> sadd x (repeat (RtoC 0) n) = x.
Proof.
  intros H. assert (L : length x = length (repeat (RtoC 0) n)) by now rewrite repeat_length.
  apply spec_ext; [now apply sadd_length|]. rewrite sadd_length by exact L. intros k Hk.
  rewrite coef_sadd by auto. rewrite coef_zero. ring.
Qed.
Lemma sub_zeros x n : length x = n -> ssub x (repeat (RtoC 0) n) = x.
Proof.
  intros H. assert (L : length x = length (repeat (RtoC 0) n)) by now rewrite repeat_length.
  apply spec_ext; [now apply ssub_length|]. rewrite ssub_length by exact L. intros k Hk.
  rewrite coef_ssub by auto. rewrite coef_zero. ring.
Qed.
Lemma zeros_add x n : length x = n -> sadd (repeat (RtoC 0) n) x = x.
Proof.
  intros H. assert (L : length (repeat (RtoC 0) n) = length x) by now rewrite repeat_length.
  apply spec_ext; [rewrite sadd_length, repeat_length by auto; auto|]. rewrite sadd_length by exact L. intros k Hk.
  rewrite coef_sadd by auto. rewrite coef_zero. ring.
Qed.
Lemma map_repeat {X Y} (f : X -> Y) x n : map f (repeat x n) = repeat (f x) n.
Proof. induction n as [|n IH]; [reflexivity|]. cbn. now rewrite IH. Qed.
Lemma scale_zeros c n : sscale c (repeat (RtoC 0) n) = repeat (RtoC 0) n.
Proof. unfold sscale. rewrite map_repeat. f_equal. ring. Qed.
Lemma opp_zeros n : sopp (repeat (RtoC 0) n) = repeat (RtoC 0) n.
Proof. unfold sopp. rewrite map_repeat. f_equal. ring. Qed.
Lemma scale_0 x n : length x = n -> sscale 0 x = repeat (RtoC 0) n.
Proof.
  intros H. apply spec_ext; [now rewrite sscale_length, repeat_length|]. rewrite sscale_length. intros k Hk.
  rewrite coef_sscale by auto. rewrite coef_zero. ring.
Qed.

Ltac cring := intros; repeat match goal with c : C |- _ => destruct c end;
  unfold Cminus, Cplus, Cmult, Copp, RtoC; cbn [fst snd]; apply pair_eqC; ring.
Lemma filter_mean (c : C) nu : (RtoC (1 - 2 * nu) * c + RtoC nu * (c + c))%C = c.
Proof. cring. Qed.
Lemma filter_line (a b d : C) nu : (b - a)%C = d -> (RtoC (1 - 2 * nu) * b + RtoC nu * (a + (d + b)))%C = b.
Proof. intros <-. cring. Qed.
Lemma filter_mode (a b : C) nu : (a - (RtoC (1 - 2 * nu) * b + RtoC nu * (a + a)))%C = (RtoC (- (1 - 2 * nu)) * (b - a))%C.
Proof. cring. Qed.

Section Diffusion.
Context {K : numtype} (T : sphfam) (g : grid).
Hypothesis H : exact_on T g.
Hypothesis Hr : g_rsphere g <> 0.
Notation N := (nspec (g_ntrunc g)).
Notation zero := (repeat (RtoC 0) N).
Notation A := (to_spectral T g).

Lemma diffusion_zero c d o : solve_diffusion_spectral g zero c d o = zero.
Proof.
  apply spec_ext; [rewrite diffusion_length; auto using repeat_length|]. rewrite diffusion_length by apply repeat_length.
  intros k Hk. rewrite diffusion_coef by (auto using repeat_length). rewrite coef_zero. unfold Cdiv. ring.
Qed.
Lemma diffusion_id x c d o : length x = N -> d * c = 0 -> solve_diffusion_spectral g x c d o = x.
Proof.
  intros L E. apply spec_ext; [rewrite diffusion_length; auto|]. rewrite diffusion_length by auto. intros k Hk.
  rewrite diffusion_coef by auto. rewrite E, Rmult_0_l, Rplus_0_r. apply Cdiv_1.
Qed.
Lemma analysis_zero : A (mat_of (g_nlat g) (g_nlon g) (fun _ _ => 0)) = zero.
Proof.
  set (Z := mat_of (g_nlat g) (g_nlon g) (fun _ _ => 0)).
  assert (HZ : shaped (g_nlat g) (g_nlon g) Z) by apply shaped_mat_of.
  assert (E : Z = madd (mscale 0 Z) (mscale 0 Z)).
  { apply (mat_ext (g_nlat g) (g_nlon g)); [exact HZ|apply shaped_madd; now apply shaped_mscale|].
    intros i j Hi Hj. rewrite (mget_madd (g_nlat g) (g_nlon g)) by (auto using shaped_mscale).
    rewrite (mget_mscale (g_nlat g) (g_nlon g)) by auto. unfold Z. rewrite mget_mat_of by auto. ring. }
  rewrite E. unfold to_spectral. rewrite (et_analysis_linear _ _ _ _ H) by auto.
  rewrite (scale_0 _ N) by apply (et_len _ _ _ _ H). apply add_zeros, repeat_length.
Qed.

(** C23 *)
Lemma bg_fixed (M : bmodel K) bg d : m_bg M = Some bg -> apply_diffusion T M g d (A bg) = A bg.
Proof.
  intros E. unfold apply_diffusion. rewrite E. rewrite sub_self, (A_len T g H), diffusion_zero. apply zeros_add, (A_len T g H).
Qed.
Lemma bg_deviation (M : bmodel K) bg d x : m_bg M = Some bg -> length x = N ->
  ssub (apply_diffusion T M g d x) (A bg)
  = apply_diffusion T (mkModel (m_rhs M) (m_order M) (m_coeff M) None) g d (ssub x (A bg)).
Proof.
  intros E L. unfold apply_diffusion at 1. rewrite E. unfold apply_diffusion. cbn [m_bg m_coeff m_order]. apply add_sub.
  rewrite (A_len T g H). apply diffusion_length. rewrite ssub_length; [exact L|]. now rewrite (A_len T g H).
Qed.
Lemma bg_zero (M : bmodel K) d x : m_bg M = Some (mat_of (g_nlat g) (g_nlon g) (fun _ _ => 0)) -> length x = N ->
  apply_diffusion T M g d x = apply_diffusion T (mkModel (m_rhs M) (m_order M) (m_coeff M) None) g d x.
Proof.
  intros E L. unfold apply_diffusion. rewrite E. cbn [m_bg m_coeff m_order]. rewrite analysis_zero, sub_zeros by exact L.
  apply add_zeros. now apply diffusion_length.
Qed.

Lemma apply_diffusion_length (M : bmodel K) d x : length x = N -> length (apply_diffusion T M g d x) = N.
Proof.
  intros L. unfold apply_diffusion. destruct (m_bg M) as [bg|]; [|now apply diffusion_length].
  assert (L2 : length (ssub x (A bg)) = N) by (rewrite ssub_length; [exact L|now rewrite (A_len T g H)]).
  rewrite sadd_length; rewrite diffusion_length by exact L2; [reflexivity|]. now rewrite (A_len T g H).
Qed.
Lemma apply_diffusion_mean (M : bmodel K) d x : (1 <= m_order M)%nat -> length x = N ->
  coef (apply_diffusion T M g d x) 0 = coef x 0.
Proof.
  intros Ho L. pose proof (nspec_pos (g_ntrunc g)) as HN.
  assert (D : forall y, length y = N -> coef (solve_diffusion_spectral g y (m_coeff M) d (m_order M)) 0 = coef y 0).
  { intros y Ly. rewrite diffusion_coef by auto. rewrite degree_0, eigenvalue_0, pow_i by lia.
    rewrite Rmult_0_r, Rplus_0_r. apply Cdiv_1. }
  unfold apply_diffusion. destruct (m_bg M) as [bg|]; [|now apply D].
  assert (L2 : length (ssub x (A bg)) = N) by (rewrite ssub_length; [exact L|now rewrite (A_len T g H)]).
  rewrite coef_sadd; [|rewrite diffusion_length by exact L2; now rewrite (A_len T g H)|rewrite diffusion_length by exact L2; exact HN].
  rewrite D by exact L2. rewrite coef_ssub; [ring|now rewrite (A_len T g H)|lia].
Qed.

(** C34 *)
Definition mean_is (c : C) (s : state K) : Prop := s_grid s = g /\ length (s_pvs s) = N /\ coef (s_pvs s) 0 = c.
Lemma flux_length (s : state K) : s_grid s = g -> length (s_pv_flux_spectral T s) = N.
Proof. intros E. unfold s_pv_flux_spectral, divergence_spectral, vorticity_divergence_spectral. rewrite E. apply (et_vrtdiv_len _ _ _ _ H). Qed.
Lemma flux_mean (s : state K) : s_grid s = g -> coef (s_pv_flux_spectral T s) 0 = RtoC 0.
Proof. intros E. unfold s_pv_flux_spectral, divergence_spectral, vorticity_divergence_spectral. rewrite E. apply (et_vrtdiv_mean _ _ _ _ H). Qed.
Lemma euler_mean (M : bmodel K) c s dt e : m_rhs M = None -> (1 <= m_order M)%nat -> mean_is c s ->
  euler T M s dt = Ok e -> mean_is c e.
Proof.
  intros HR Ho [E [L Q]] HE. pose proof (nspec_pos (g_ntrunc g)) as HN. unfold euler, pv_tendency_spectral in HE. rewrite HR in HE. do 2 inv_bind HE. rename a into dts.
  injection HE as <-. unfold mean_is. cbn [s_grid s_pvs]. rewrite E.
  pose proof (flux_length s E) as LF.
  assert (L2 : length (sadd (s_pvs s) (sscale dts (sopp (s_pv_flux_spectral T s)))) = N).
  { rewrite sadd_length; [exact L|]. rewrite sscale_length, sopp_length. congruence. }
  split; [reflexivity|]. split; [now apply apply_diffusion_length|].
  rewrite apply_diffusion_mean by auto. rewrite coef_sadd; [|rewrite sscale_length, sopp_length; congruence|lia].
  rewrite coef_sscale by (rewrite sopp_length; lia). rewrite coef_sopp by lia. rewrite (flux_mean s E), Q. ring.
Qed.
Lemma leapfrog_mean (M : bmodel K) c a b nu f n : m_rhs M = None -> (1 <= m_order M)%nat -> mean_is c a -> mean_is c b ->
  leapfrog T M a b nu = Ok (f, n) -> mean_is c f /\ mean_is c n.
Proof.
  intros HR Ho [E [L Q]] [E' [L' Q']] HE. pose proof (nspec_pos (g_ntrunc g)) as HN. unfold leapfrog, pv_tendency_spectral in HE. rewrite HR in HE. do 2 inv_bind HE. rename a1 into dts.
  inv_bind HE. injection HE as <- <-. unfold mean_is. cbn [s_grid s_pvs]. rewrite E'.
  pose proof (flux_length b E') as LF.
  assert (L2 : length (sadd (s_pvs a) (sscale (2 * dts) (sopp (s_pv_flux_spectral T b)))) = N).
  { rewrite sadd_length; [exact L|]. rewrite sscale_length, sopp_length. congruence. }
  pose proof (apply_diffusion_length M (2 * dts) _ L2) as L3.
  assert (Q2 : coef (apply_diffusion T M g (2 * dts) (sadd (s_pvs a) (sscale (2 * dts) (sopp (s_pv_flux_spectral T b))))) 0 = c).
  { rewrite apply_diffusion_mean by auto. rewrite coef_sadd; [|rewrite sscale_length, sopp_length; congruence|lia].
    rewrite coef_sscale by (rewrite sopp_length; lia). rewrite coef_sopp by lia. rewrite (flux_mean b E'), Q. ring. }
  set (x := apply_diffusion _ _ _ _ _) in *.
  assert (L4 : length (sadd (s_pvs a) x) = N) by (rewrite sadd_length; congruence).
  split; [|auto]. split; [reflexivity|]. split; [rewrite sadd_length; rewrite !sscale_length; congruence|].
  rewrite coef_sadd; [|rewrite !sscale_length; congruence|rewrite sscale_length; lia].
  rewrite !coef_sscale by lia. rewrite coef_sadd by (congruence || lia). rewrite Q, Q', Q2.
  apply filter_mean.
Qed.
Lemma steps_mean (M : bmodel K) init dt n s new : m_rhs M = None -> (1 <= m_order M)%nat ->
  s_grid init = g -> length (s_pvs init) = N ->
  steps T M init dt n = Ok (s, new) -> mean_is (coef (s_pvs init) 0) s /\ mean_is (coef (s_pvs init) 0) new.
Proof.
  intros HR Ho HG HL. revert s new. induction n as [|n IH]; intros s new HS.
  - cbn [steps] in HS. inv_bind HS. injection HS as <- <-.
    assert (HI : mean_is (coef (s_pvs init) 0) init) by (repeat split; auto). split; [exact HI|]. exact (euler_mean M _ _ _ _ HR Ho HI E).
  - apply steps_prev in HS. destruct HS as [[a b] [HS HF]]. destruct (IH a b HS) as [H1 H2]. exact (leapfrog_mean M _ _ _ _ _ _ HR Ho H1 H2 HF).
Qed.
Lemma run_mean (M : bmodel K) fuel init dt tend se f r : m_rhs M = None -> (1 <= m_order M)%nat ->
  s_grid init = g -> length (s_pvs init) = N -> run T M fuel init dt tend se = Ok (f, r) ->
  Forall (fun s => coef (s_pvs s) 0 = coef (s_pvs init) 0) (f :: items r).
Proof.
  intros HR Ho HG HL R. apply run_sound in R. destruct R as [[_ [-> ->]]|[_ [N' [HT [_ [_ ->]]]]]].
  - repeat constructor.
  - constructor.
    + destruct HT as [new HT]. destruct (steps_mean M init dt _ _ _ HR Ho HG HL HT) as [[_ [_ Q]] _]. exact Q.
    + cbn [items]. constructor; [reflexivity|]. apply Forall_map. apply Forall_forall. intros k Hk. apply saved_range in Hk.
      destruct HT as [new HT]. destruct (steps_le _ _ _ _ _ k _ HT ltac:(lia)) as [[a b] Hab].
      rewrite (at_step_eq _ _ _ _ _ _ _ Hab). destruct (steps_mean M init dt _ _ _ HR Ho HG HL Hab) as [[_ [_ Q]] _]. exact Q.
Qed.

(** C35 *)
Notation F2 := (fcor2_spectral T g).
Definition Zm : mat := mat_of (g_nlat g) (g_nlon g) (fun _ _ => 0).
Definition rests (s : state K) : Prop := s_grid s = g /\ s_pvs s = F2.
Lemma rests_on_grid (s : state K) : rests s -> on_grid T g s.
Proof. intros [E P]. split; [exact E|]. rewrite P. split; [apply (F2_len T g H)|apply (F2_res T g H)]. Qed.
Lemma rests_wind (s : state K) : rests s -> s_invert_pv T s = (Zm, Zm).
Proof.
  intros R. rewrite (uv_W T g H s (rests_on_grid s R)). destruct R as [E P]. unfold s_vorticity_spectral. rewrite E, P, sub_self, (F2_len T g H).
  pose proof (nspec_pos (g_ntrunc g)) as HN.
  replace (repeat (RtoC 0) N) with (mpart g 0); [apply (W_const T g H)|]. unfold mpart. replace N with (S (N - 1)) at 2 by lia. reflexivity.
Qed.
Lemma rests_flux (s : state K) : rests s -> s_pv_flux_spectral T s = zero.
Proof.
  intros R. pose proof (rests_wind s R) as HW. pose proof (pv_shape T g H s (rests_on_grid s R)) as HP.
  destruct R as [E P]. unfold s_pv_flux_spectral, s_u, s_v. rewrite HW, E. cbn [fst snd].
  assert (HZ : shaped (g_nlat g) (g_nlon g) Zm) by apply shaped_mat_of.
  assert (EZ : mmul (s_pv T s) Zm = Zm).
  { apply (mat_ext (g_nlat g) (g_nlon g)); [now apply shaped_mmul|exact HZ|]. intros i j Hi Hj.
    rewrite (mget_mmul (g_nlat g) (g_nlon g)) by auto. unfold Zm. rewrite mget_mat_of by auto. ring. }
  rewrite EZ.
  assert (E0 : Zm = madd (mscale 0 Zm) (mscale 0 Zm)).
  { apply (mat_ext (g_nlat g) (g_nlon g)); [exact HZ|apply shaped_madd; now apply shaped_mscale|].
    intros i j Hi Hj. rewrite (mget_madd (g_nlat g) (g_nlon g)) by (auto using shaped_mscale).
    rewrite (mget_mscale (g_nlat g) (g_nlon g)) by auto. unfold Zm. rewrite mget_mat_of by auto. ring. }
  unfold divergence_spectral, vorticity_divergence_spectral. rewrite E0.
  destruct (et_vrtdiv_linear _ _ _ _ H 0 0 Zm Zm Zm Zm HZ HZ HZ HZ) as [_ ->].
  rewrite (scale_0 _ N) by apply (et_vrtdiv_len _ _ _ _ H). apply add_zeros, repeat_length.
Qed.
Lemma tend_zero (M : bmodel K) s : m_rhs M = None -> rests s -> pv_tendency_spectral T M s = Ok zero.
Proof. intros HR R. unfold pv_tendency_spectral. rewrite HR, (rests_flux s R). now rewrite opp_zeros. Qed.
Definition neutral (M : bmodel K) : Prop := m_coeff M = 0 \/ exists bg, m_bg M = Some bg /\ A bg = F2.
Lemma neutral_id (M : bmodel K) d : neutral M -> apply_diffusion T M g d F2 = F2.
Proof.
  intros [E|[bg [E Q]]]; [|rewrite <- Q; now apply bg_fixed].
  pose proof (F2_len T g H) as LF. unfold apply_diffusion. rewrite E. destruct (m_bg M) as [bg|].
  - rewrite diffusion_id; [apply sub_add; now rewrite (A_len T g H)| |ring]. rewrite ssub_length; [exact LF|]. now rewrite (A_len T g H).
  - apply diffusion_id; [exact LF|ring].
Qed.
Lemma steps_rest (M : bmodel K) init dt n s new : m_rhs M = None -> neutral M -> rests init ->
  steps T M init dt n = Ok (s, new) -> rests s /\ rests new.
Proof.
  intros HR HN HI. pose proof (F2_len T g H) as LF. revert s new. induction n as [|n IH]; intros s new HS.
  - cbn [steps] in HS. inv_bind HS. injection HS as <- <-. split; [exact HI|].
    unfold euler in E. rewrite (tend_zero M init HR HI) in E. inv_bind E. cbn [bind] in E. inv_bind E. injection E as <-.
    destruct HI as [EG EP]. split; [exact EG|]. cbn [s_pvs]. rewrite EG, EP, scale_zeros, add_zeros by exact LF. now apply neutral_id.
  - apply steps_prev in HS. destruct HS as [[a b] [HS HF]]. destruct (IH a b HS) as [H1 H2]. cbn [fst snd] in HF.
    unfold leapfrog in HF. rewrite (tend_zero M b HR H2) in HF. do 2 inv_bind HF. cbn [bind] in HF. inv_bind HF. injection HF as <- <-.
    destruct H1 as [EG EP], H2 as [EG' EP']. unfold rests. cbn [s_grid s_pvs]. rewrite EG', EP, EP', scale_zeros, add_zeros by exact LF.
    rewrite neutral_id by exact HN. repeat split.
    apply spec_ext; [rewrite sadd_length; rewrite !sscale_length; [reflexivity|now rewrite sadd_length]|].
    rewrite sadd_length by (rewrite !sscale_length; now rewrite sadd_length). rewrite sscale_length. intros k Hk.
    rewrite coef_sadd by (rewrite !sscale_length; try rewrite sadd_length; auto). rewrite !coef_sscale by (try rewrite sadd_length; auto).
    rewrite coef_sadd by auto. apply filter_mean.
Qed.
Lemma run_rest (M : bmodel K) fuel init dt tend se f r : m_rhs M = None -> neutral M -> rests init ->
  run T M fuel init dt tend se = Ok (f, r) ->
  Forall (fun s => s_u T s = Zm /\ s_v T s = Zm) (f :: items r).
Proof.
  intros HR HN HI R. assert (Q : forall s, rests s -> s_u T s = Zm /\ s_v T s = Zm).
  { intros s Hs. unfold s_u, s_v. now rewrite (rests_wind s Hs). }
  apply run_sound in R. destruct R as [[_ [-> ->]]|[_ [N' [HT [_ [_ ->]]]]]].
  - constructor; [now apply Q|]. constructor; [now apply Q|constructor].
  - constructor.
    + destruct HT as [new HT]. apply Q. exact (proj1 (steps_rest M _ _ _ _ _ HR HN HI HT)).
    + cbn [items]. constructor; [now apply Q|]. apply Forall_map. apply Forall_forall. intros k Hk. apply saved_range in Hk.
      destruct HT as [new HT]. destruct (steps_le _ _ _ _ _ k _ HT ltac:(lia)) as [[a b] Hab].
      rewrite (at_step_eq _ _ _ _ _ _ _ Hab). apply Q. exact (proj1 (steps_rest M _ _ _ _ _ HR HN HI Hab)).
Qed.
End Diffusion.

(** C36 *)
Section Filter.
Context {K : numtype} (T : sphfam) (M : bmodel K).
Lemma filter_formula old now nu f new : leapfrog T M old now nu = Ok (f, new) ->
  length (s_pvs old) = length (s_pvs now) -> length (s_pvs new) = length (s_pvs now) ->
  length (s_pvs f) = length (s_pvs now)
  /\ forall k, (k < length (s_pvs now))%nat -> coef (s_pvs f) k =
     (RtoC (1 - 2 * nu) * coef (s_pvs now) k + RtoC nu * (coef (s_pvs old) k + coef (s_pvs new) k))%C.
Proof.
  intros HL L1 L2. unfold leapfrog in HL. do 4 inv_bind HL. injection HL as <- <-. cbn [s_pvs] in *.
  set (x := apply_diffusion _ _ _ _ _) in *.
  assert (L3 : length (sadd (s_pvs old) x) = length (s_pvs now)) by (rewrite sadd_length; congruence).
  split; [rewrite sadd_length; rewrite !sscale_length; congruence|]. intros k Hk.
  rewrite coef_sadd by (rewrite !sscale_length; congruence). rewrite !coef_sscale by congruence. rewrite coef_sadd by congruence. reflexivity.
Qed.
Lemma filter_zero old now f new : leapfrog T M old now 0 = Ok (f, new) ->
  length (s_pvs old) = length (s_pvs now) -> length (s_pvs new) = length (s_pvs now) -> s_pvs f = s_pvs now.
Proof.
  intros HL L1 L2. destruct (filter_formula _ _ _ _ _ HL L1 L2) as [L E]. apply spec_ext; [exact L|]. rewrite L. intros k Hk.
  rewrite E by exact Hk. rewrite Rmult_0_r, Rminus_0_r. ring.
Qed.
Lemma filter_straight old now nu f new : leapfrog T M old now nu = Ok (f, new) ->
  length (s_pvs old) = length (s_pvs now) -> length (s_pvs new) = length (s_pvs now) ->
  (forall k, (k < length (s_pvs now))%nat -> (coef (s_pvs now) k - coef (s_pvs old) k = coef (s_pvs new) k - coef (s_pvs now) k)%C) ->
  s_pvs f = s_pvs now.
Proof.
  intros HL L1 L2 HS. destruct (filter_formula _ _ _ _ _ HL L1 L2) as [L E]. apply spec_ext; [exact L|]. rewrite L. intros k Hk.
  rewrite E by exact Hk. specialize (HS k Hk).
  replace (coef (s_pvs new) k) with (coef (s_pvs new) k - coef (s_pvs now) k + coef (s_pvs now) k)%C by ring.
  now apply filter_line.
Qed.
End Filter.
Lemma computational_mode {K} T (M : bmodel K) g old now nu f new :
  exact_on T g -> g_rsphere g <> 0 -> leapfrog T M old now nu = Ok (f, new) ->
  s_grid now = g -> length (s_pvs old) = nspec (g_ntrunc g) -> length (s_pvs now) = nspec (g_ntrunc g) ->
  pv_tendency_spectral T M now = Ok (repeat (RtoC 0) (nspec (g_ntrunc g))) -> m_coeff M = 0 ->
  s_pvs new = s_pvs old
  /\ forall k, (k < nspec (g_ntrunc g))%nat ->
     (coef (s_pvs new) k - coef (s_pvs f) k = RtoC (- (1 - 2 * nu)) * (coef (s_pvs now) k - coef (s_pvs old) k))%C.
Proof.
  intros H Hr HL EG L1 L2 HT HC.
  assert (EN : s_pvs new = s_pvs old).
  { unfold leapfrog in HL. rewrite HT in HL. do 2 inv_bind HL. cbn [bind] in HL. inv_bind HL. injection HL as _ <-. cbn [s_pvs].
    rewrite scale_zeros, add_zeros by exact L1. rewrite EG. unfold apply_diffusion. rewrite HC.
    destruct (m_bg M) as [bg|].
    - rewrite (diffusion_id g Hr); [apply sub_add; now rewrite (A_len T g H)| |ring]. rewrite ssub_length; [exact L1|]. now rewrite (A_len T g H).
    - apply (diffusion_id g Hr); [exact L1|ring]. }
  split; [exact EN|]. intros k Hk.
  destruct (filter_formula T M _ _ _ _ _ HL) as [_ E]; [congruence|congruence|].
  rewrite E by congruence. rewrite EN. apply filter_mode.
Qed.

(** C35 fails with plain diffusion: a solid-body rotation appears *)
Section Refuted.
Let g := d1_grid 1 (1 / 2).
Let Hg : exact_on d1_family g. Proof. apply d1_exact. lra. Qed.
Notation zon c := [RtoC 0; RtoC c; RtoC 0].

Lemma d1_fcor2 : fcor2_spectral d1_family g = zon 1.
Proof.
  unfold fcor2_spectral, to_spectral. cbn [sph d1_family sh_grdtospec]. unfold d1_analysis, row_mean, row_cos, row_sin.
  assert (E : forall i j, (i < 3)%nat -> (j < 4)%nat -> mget (g_fcor2 g) i j = coriolis g (nth i (g_lat g) 0)).
  { intros. now apply (fcor2_grid g). }
  rewrite !E by lia.
  assert (L0 : nth 0 (g_lat g) 0 = 90) by (unfold g_lat, g, d1_grid; cbn; lra).
  assert (L1 : nth 1 (g_lat g) 0 = 0) by (unfold g_lat, g, d1_grid; cbn; lra).
  assert (L2 : nth 2 (g_lat g) 0 = - (90)) by (unfold g_lat, g, d1_grid; cbn; lra).
  rewrite L0, L1, L2. unfold coriolis. replace (deg2rad (- (90))) with (- (PI / 2)) by (unfold deg2rad; field).
  replace (deg2rad 90) with (PI / 2) by (unfold deg2rad; field). replace (deg2rad 0) with 0 by (unfold deg2rad; field).
  rewrite sin_neg, sin_PI2, sin_0. unfold g, d1_grid. cbn [g_omega]. unfold RtoC. list3; apply pair_eqC; field.
Qed.
Lemma zon_vort {K} (s : state K) c : s_grid s = g -> s_pvs s = zon c -> s_vorticity_spectral d1_family s = zon (c - 1).
Proof.
  intros E P. unfold s_vorticity_spectral. rewrite E, P, d1_fcor2. unfold ssub. cbn [map2].
  list3; unfold Cminus, Cplus, Copp, RtoC; cbn [fst snd]; apply pair_eqC; ring.
Qed.
Lemma zon_wind {K} (s : state K) c : s_grid s = g -> s_pvs s = zon c ->
  s_u d1_family s = mat_of 3 4 (fun i j => (c - 1) / 2 * d1_cphi i) /\ s_v d1_family s = mat_of 3 4 (fun _ _ => 0).
Proof.
  intros E P. unfold s_u, s_v, s_invert_pv. rewrite (zon_vort s c E P), E. unfold wind. cbn [sph d1_family sh_getuv szeros_like map].
  unfold d1_getuv. cbn [fst snd g d1_grid g_rsphere].
  split; (apply (mat_ext 3 4); [apply shaped_mat_of|apply shaped_mat_of|]; intros i j Hi Hj; rewrite !mget_mat_of by auto;
    unfold coef; cbn [as_spectral nth Re Im RtoC fst snd]; field).
Qed.
Lemma zon_tendency {K} (M : bmodel K) (s : state K) c : m_rhs M = None -> s_grid s = g -> s_pvs s = zon c ->
  pv_tendency_spectral d1_family M s = Ok (zon 0).
Proof.
  intros HR E P. unfold pv_tendency_spectral. rewrite HR. f_equal. unfold s_pv_flux_spectral.
  destruct (zon_wind s c E P) as [-> ->]. unfold divergence_spectral, vorticity_divergence_spectral. rewrite E.
  cbn [sph d1_family sh_getvrtdivspec]. unfold d1_getvrtdiv, row_mean, row_sin, row_cos. cbn [snd].
  assert (S1 : shaped 3 4 (s_pv d1_family s)) by (unfold s_pv; rewrite E; apply (B_shape d1_family g Hg)).
  assert (EP : forall i j, (i < 3)%nat -> (j < 4)%nat -> mget (s_pv d1_family s) i j = c * d1_sphi i).
  { intros i j Hi Hj. unfold s_pv, to_grid. rewrite E, P. cbn [sph d1_family sh_spectogrd]. unfold d1_synthesis. rewrite mget_mat_of by auto.
    unfold coef. cbn [nth Re Im RtoC fst snd]. ring. }
  rewrite !(mget_mmul 3 4) by (lia || exact S1 || apply shaped_mat_of). rewrite !mget_mat_of by lia. rewrite !EP by lia.
  unfold sopp, RtoC, Copp. cbn [map fst snd]. list3; apply pair_eqC; cbn [g d1_grid g_rsphere]; unfold d1_cphi, d1_sphi; cbn [nth]; field.
Qed.
Lemma zon_diffusion c coeff d : 0 <= d * coeff -> solve_diffusion_spectral g (zon c) coeff d 1 = zon (c / (1 + d * coeff * 2)).
Proof.
  intros Hd. apply spec_ext; [rewrite diffusion_length; reflexivity|]. rewrite diffusion_length by reflexivity. intros k Hk.
  rewrite diffusion_coef; [|cbn; lra|reflexivity|exact Hk]. cbn in Hk.
  assert (EV : forall k, (0 < k < 3)%nat -> eigenvalue (g_rsphere g) (degree (g_ntrunc g) k) = 2).
  { intros q Hq. destruct q as [|[|[|q]]]; try lia; unfold eigenvalue; cbn; field. }
  destruct k as [|[|[|k]]]; try lia; [|rewrite EV by lia|rewrite EV by lia]; unfold coef; cbn [nth pow]; try (unfold Cdiv; ring).
  rewrite Rmult_1_r, <- RtoC_div; [reflexivity|lra].
Qed.
Lemma zon_add a b c : sadd (zon a) (sscale c (zon b)) = zon (a + c * b).
Proof. unfold sadd, sscale. cbn [map map2]. list3; unfold Cplus, Cmult, RtoC; cbn [fst snd]; apply pair_eqC; ring. Qed.

Lemma motionless_refuted : exists init f r, motionless d1_family g (@VNum numR 0) = Ok init
  /\ run d1_family (mkModel None 1 (1 / 2) None) 2 init (@VNum numR 1) (@VNum numR 1) (@VNum numR 0) = Ok (f, r)
  /\ mget (s_u d1_family f) 1 0 = - (13 / 60).
Proof.
  set (M := mkModel (K := numR) None 1 (1 / 2) None).
  set (s0 := mkState (K := numR) g (@VNum numR 0) (zon 1)).
  set (e := mkState (K := numR) g (@VNum numR (0 + 1)) (zon (1 / 2))).
  assert (HE : euler d1_family M s0 (@VNum numR 1) = Ok e).
  { unfold euler. cbn [to_seconds bind n_R numR]. rewrite (zon_tendency M s0 1) by reflexivity. cbn [bind s0 s_time s_pvs s_grid py_add].
    unfold apply_diffusion. cbn [M m_bg m_coeff m_order]. rewrite zon_add, zon_diffusion by lra. unfold e.
    replace ((1 + 1 * 0) / (1 + 1 * (1 / 2) * 2)) with (1 / 2) by field. reflexivity. }
  assert (HL : exists n, leapfrog d1_family M s0 e default_nu = Ok (mkState (K := numR) g (@VNum numR (0 + 1)) (zon (17 / 30)), n)).
  { unfold leapfrog, s0, e. cbn [s_time py_sub bind to_seconds]. rewrite (zon_tendency M _ (1 / 2)) by reflexivity.
    cbn [bind s_time s_pvs s_grid py_add n_R numR n_sub n_add].
    unfold apply_diffusion. cbn [M m_bg m_coeff m_order]. rewrite zon_add, zon_diffusion by lra. eexists.
    apply (f_equal (@Ok _)). apply f_equal2; [|reflexivity]. apply (f_equal (mkState (K := numR) g (@VNum numR (0 + 1)))).
    unfold sadd, sscale. cbn [map map2]. unfold default_nu.
    list3; unfold Cplus, Cmult, RtoC; cbn [fst snd]; apply pair_eqC; field. }
  destruct HL as [n HL]. set (f := mkState (K := numR) g (@VNum numR (0 + 1)) (zon (17 / 30))) in *.
  exists s0, f, (AStateList (s0 :: nil)). split; [|split].
  - unfold motionless, state_init, s0. f_equal. change (to_spectral d1_family g (g_fcor2 g)) with (fcor2_spectral d1_family g). now rewrite d1_fcor2.
  - unfold run. cbn [s0 s_time py_lt bind]. change (n_lt numR) with Rltb. replace (Rltb 1 0) with false by (symmetry; apply Rltb_false; lra).
    fold s0. rewrite HE. cbn [bind run_loop]. cbn [s0 s_time py_lt bind]. change (n_lt numR) with Rltb. change (n_zero numR) with 0.
    replace (Rltb 0 1) with true by (symmetry; apply Rltb_true; lra). fold s0. rewrite HL. cbn [bind].
    replace (Rltb 0 0) with false by (symmetry; apply Rltb_false; lra). cbn [f s_time py_lt bind].
    change (n_lt numR) with Rltb. replace (Rltb (0 + 1) 1) with false by (symmetry; apply Rltb_false; lra). cbn [bind].
    unfold statelist_of, passert. cbn [forallb]. now rewrite grid_eqb_refl.
  - destruct (zon_wind f (17 / 30)) as [-> _]; [reflexivity|reflexivity|]. rewrite mget_mat_of by lia. unfold d1_cphi. cbn [nth]. field.
Qed.
End Refuted.

(** coefficients of one step (C88) *)
Lemma tendency_coef {K} T (M : bmodel K) g (s : state K) x : exact_on T g -> s_grid s = g -> pv_tendency_spectral T M s = Ok x ->
  let flux := snd (sh_getvrtdivspec (T (g_nlat g) (g_nlon g) (g_rsphere g)) (mmul (s_pv T s) (s_u T s)) (mmul (s_pv T s) (s_v T s)) (g_ntrunc g)) in
  match m_rhs M with
  | None => length x = nspec (g_ntrunc g) /\ forall k, (k < nspec (g_ntrunc g))%nat -> coef x k = (- coef flux k)%C
  | Some f => exists F, f s = Ok (FMat F) /\ (length (to_spectral T g F) = nspec (g_ntrunc g) ->
      length x = nspec (g_ntrunc g)
      /\ forall k, (k < nspec (g_ntrunc g))%nat -> coef x k = (- coef flux k + coef (to_spectral T g F) k)%C)
  end.
Proof.
  intros H E HP flux. assert (EF : s_pv_flux_spectral T s = flux).
  { unfold s_pv_flux_spectral, divergence_spectral, vorticity_divergence_spectral, sph. now rewrite E. }
  assert (LF : length flux = nspec (g_ntrunc g)) by (rewrite <- EF; apply (flux_length T g H s E)).
  unfold pv_tendency_spectral in HP. rewrite EF in HP. destruct (m_rhs M) as [f|].
  - destruct (f s) as [[c|F]|e]; try discriminate. cbn [bind] in HP. apply Ok_inj in HP. subst x. exists F. split; [reflexivity|].
    intros L. rewrite E. rewrite sadd_length by (rewrite sopp_length; congruence). rewrite sopp_length. split; [exact LF|].
    intros k Hk. rewrite coef_sadd, coef_sopp; rewrite ?sopp_length; congruence || lia.
  - apply Ok_inj in HP. subst x. rewrite sopp_length. split; [exact LF|]. intros k Hk. apply coef_sopp. lia.
Qed.

Lemma semi_implicit res rs om nt g : mk_grid res rs om nt = Ok g ->
  forall K T (M : bmodel K) h (q x : spec), m_bg M = None -> 0 <= h * m_coeff M ->
  length q = nspec (g_ntrunc g) -> length x = nspec (g_ntrunc g) ->
  length (apply_diffusion T M g h (sadd q (sscale h x))) = nspec (g_ntrunc g)
  /\ forall k, (k < nspec (g_ntrunc g))%nat ->
    (RtoC (1 + h * m_coeff M * eigenvalue rs (degree (g_ntrunc g) k) ^ m_order M)
     * coef (apply_diffusion T M g h (sadd q (sscale h x))) k = coef q k + RtoC h * coef x k)%C.
Proof.
  intros Hg K T M h q x HB Hc Lq Lx. pose proof (mk_grid_facts _ _ _ _ _ Hg) as F.
  assert (LS : length (sadd q (sscale h x)) = nspec (g_ntrunc g)) by (rewrite sadd_length; rewrite ?sscale_length; congruence).
  unfold apply_diffusion. rewrite HB. split; [now apply diffusion_length|]. intros k Hk.
  pose proof (gf_rs_pos _ _ _ _ F) as HR. rewrite (diffusion_coef g _ _ _ _ k); auto; [|rewrite (gf_rs _ _ _ _ F); lra].
  rewrite (gf_rs _ _ _ _ F). rewrite coef_sadd, coef_sscale by (rewrite ?sscale_length; congruence || lia).
  set (d := 1 + _). assert (P : 0 < d).
  { unfold d. pose proof (pow_le _ (m_order M) (eigenvalue_nonneg rs (degree (g_ntrunc g) k) HR)). nra. }
  field. intros Z. apply RtoC_inj in Z. lra.
Qed.

Lemma euler_coef res rs om nt g : mk_grid res rs om nt = Ok g ->
  forall K T (M : bmodel K) (now new : state K) dt, s_grid now = g -> m_bg M = None -> euler T M now dt = Ok new ->
  exists h x, to_seconds dt = Ok h /\ pv_tendency_spectral T M now = Ok x
  /\ s_grid new = g /\ py_add (s_time now) dt = Ok (s_time new)
  /\ (0 <= h * m_coeff M -> length (s_pvs now) = nspec (g_ntrunc g) -> length x = nspec (g_ntrunc g) ->
      length (s_pvs new) = nspec (g_ntrunc g)
      /\ forall k, (k < nspec (g_ntrunc g))%nat ->
        (RtoC (1 + h * m_coeff M * eigenvalue rs (degree (g_ntrunc g) k) ^ m_order M) * coef (s_pvs new) k
         = coef (s_pvs now) k + RtoC h * coef x k)%C).
Proof.
  intros Hg K T M now new dt E HB HE. unfold euler in HE. do 3 inv_bind HE. injection HE as <-.
  do 2 eexists. split; [reflexivity|]. split; [reflexivity|]. split; [exact E|]. split; [reflexivity|].
  cbn [s_pvs]. rewrite E. intros Hc Lq Lx. now apply (semi_implicit _ _ _ _ _ Hg).
Qed.

Lemma leapfrog_coef res rs om nt g : mk_grid res rs om nt = Ok g ->
  forall K T (M : bmodel K) (old now f new : state K) nu, s_grid now = g -> m_bg M = None -> leapfrog T M old now nu = Ok (f, new) ->
  exists dt h x, py_sub (s_time now) (s_time old) = Ok dt /\ to_seconds dt = Ok h /\ pv_tendency_spectral T M now = Ok x
  /\ (0 <= h * m_coeff M -> length (s_pvs old) = nspec (g_ntrunc g) -> length x = nspec (g_ntrunc g) ->
      length (s_pvs new) = nspec (g_ntrunc g)
      /\ forall k, (k < nspec (g_ntrunc g))%nat ->
        (RtoC (1 + 2 * h * m_coeff M * eigenvalue rs (degree (g_ntrunc g) k) ^ m_order M) * coef (s_pvs new) k
         = coef (s_pvs old) k + RtoC (2 * h) * coef x k)%C).
Proof.
  intros Hg K T M old now f new nu E HB HE. unfold leapfrog in HE. do 4 inv_bind HE. injection HE as <- <-.
  do 3 eexists. split; [reflexivity|]. split; [reflexivity || eassumption|]. split; [reflexivity || eassumption|].
  cbn [s_pvs]. rewrite E. intros Hc Lq Lx. apply (semi_implicit _ _ _ _ _ Hg); auto. lra.
Qed.
