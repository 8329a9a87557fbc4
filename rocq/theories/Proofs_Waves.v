(** Integrations of Rossby-Haurwitz waves (C132). *)
From Coq Require Export String.
From Verif Require Import Base Model_Grid Model_Time Model_Spectral Model_State Model_Run.
From Verif Require Import Spec_Grid Spec_Spectral Spec_State Spec_Run Spec_Calculus Spec_Sym Spec_Symmetry Spec_Relax Spec_Waves.
From Verif Require Import Proofs_Base Proofs_Grid Proofs_Spectral Proofs_Instance Proofs_State Proofs_Run Proofs_Step Proofs_RHS Proofs_Calculus Proofs_Sym Proofs_Symmetry Proofs_Relax Proofs_WaveRec.
From Coquelicot Require Import Complex.
From Coq Require Import List Lia Lra.
Open Scope R_scope.

Lemma sine_shaped nlat nlon : shaped nlat nlon (sine_lat nlat nlon).
Proof. apply shaped_mat_of. Qed.
(** the planetary vorticity is 2 omega sin(latitude) *)
Lemma fcor2_sine res rs om nt g : mk_grid res rs om nt = Ok g -> g_fcor2 g = mscale (2 * g_omega g) (sine_lat (g_nlat g) (g_nlon g)).
Proof.
  intros Hg. pose proof (gf_nlat3 _ _ _ _ (mk_grid_facts _ _ _ _ _ Hg)) as Hp.
  apply (mat_ext (g_nlat g) (g_nlon g)); [apply fcor2_shaped|apply shaped_mscale, sine_shaped|].
  intros i j Hi Hj. rewrite fcor2_grid, (mget_mscale (g_nlat g) (g_nlon g)) by auto using sine_shaped. unfold sine_lat. rewrite mget_mat_of by auto.
  unfold coriolis. f_equal. f_equal. rewrite lat_nth by auto. unfold deg2rad. field. apply not_0_INR. lia.
Qed.

Section Products.
Context {K : numtype} (T : sphfam) (g : grid) (H : exact_on T g).
Notation N := (nspec (g_ntrunc g)).
Notation A := (to_spectral T g).
Notation B := (to_grid T g).
Notation nt := (g_ntrunc g).
Notation gshaped := (shaped (g_nlat g) (g_nlon g)).
Notation sine := (sine_lat (g_nlat g) (g_nlon g)).
Notation D := (flux_divergence (sph T g) nt).

Lemma D_length f x : length (D f x) = N.
Proof. apply (et_vrtdiv_len _ _ _ _ H). Qed.
Lemma wind_shape x y : gshaped (fst (sh_getuv (sph T g) x y)) /\ gshaped (snd (sh_getuv (sph T g) x y)).
Proof. apply (et_wind_shape _ _ _ _ H). Qed.
(** fluxes are linear in the field and in the flow *)
Lemma D_field a b f h x : gshaped f -> gshaped h -> D (madd (mscale a f) (mscale b h)) x = sadd (sscale a (D f x)) (sscale b (D h x)).
Proof.
  intros F G. unfold flux_divergence. cbv zeta. set (w := sh_getuv _ _ _). destruct (wind_shape x (repeat (RtoC 0) N)) as [U V]. fold w in U, V.
  assert (E : forall v, gshaped v -> mmul (madd (mscale a f) (mscale b h)) v = madd (mscale a (mmul f v)) (mscale b (mmul h v))).
  { intros v W. apply (mat_ext (g_nlat g) (g_nlon g)); [auto using shaped_mmul, shaped_madd, shaped_mscale..|]. intros i j Hi Hj.
    rewrite (mget_mmul (g_nlat g) (g_nlon g)), !(mget_madd (g_nlat g) (g_nlon g)), !(mget_mscale (g_nlat g) (g_nlon g)), !(mget_mmul (g_nlat g) (g_nlon g))
      by auto using shaped_mmul, shaped_madd, shaped_mscale. ring. }
  rewrite !E by assumption. apply (et_vrtdiv_linear _ _ _ _ H); auto using shaped_mmul.
Qed.
Lemma D_flow a b f x y : gshaped f -> length x = N -> length y = N -> D f (sadd (sscale a x) (sscale b y)) = sadd (sscale a (D f x)) (sscale b (D f y)).
Proof.
  intros F X Y. unfold flux_divergence. cbv zeta. set (o := repeat (RtoC 0) N). assert (LO : length o = N) by apply repeat_length.
  assert (EO : o = sadd (sscale a o) (sscale b o)).
  { apply spec_ext; [rewrite sadd_length; rewrite !sscale_length; reflexivity|]. intros k Hk. rewrite coef_sadd, !coef_sscale by (rewrite ?sscale_length; auto || reflexivity). unfold o. rewrite coef_zero. cring. }
  destruct (et_wind_linear _ _ _ _ H a b x o y o X LO Y LO) as [E1 E2]. rewrite <- EO in E1, E2. rewrite E1, E2.
  destruct (wind_shape x o) as [U V]. destruct (wind_shape y o) as [U' V'].
  assert (E : forall v w, gshaped v -> gshaped w -> mmul f (madd (mscale a v) (mscale b w)) = madd (mscale a (mmul f v)) (mscale b (mmul f w))).
  { intros v w W W'. apply (mat_ext (g_nlat g) (g_nlon g)); [auto using shaped_mmul, shaped_madd, shaped_mscale..|]. intros i j Hi Hj.
    rewrite (mget_mmul (g_nlat g) (g_nlon g)), !(mget_madd (g_nlat g) (g_nlon g)), !(mget_mscale (g_nlat g) (g_nlon g)), !(mget_mmul (g_nlat g) (g_nlon g))
      by auto using shaped_mmul, shaped_madd, shaped_mscale. ring. }
  rewrite !E by assumption. apply (et_vrtdiv_linear _ _ _ _ H); auto using shaped_mmul.
Qed.

Context (a : R) (n : nat).
Hypothesis HP : products_on T g n.
Hypothesis HF : resolved_divergence T g.
Hypothesis HO : g_fcor2 g = mscale (2 * g_omega g) sine.
Notation om := (g_omega g).
Definition wavy (z : list C) : Prop := of_degree nt n z /\ resolved (sph T g) nt z.
Lemma wavy_length z : wavy z -> length z = N. Proof. now intros [[L _] _]. Qed.
Lemma wavy_lin p q x y : wavy x -> wavy y -> wavy (sadd (sscale p x) (sscale q y)).
Proof.
  intros [[L E] R1] [[L' E'] R2]. split; [split|].
  - rewrite sadd_length; rewrite !sscale_length; congruence.
  - intros k Hk Dk. rewrite coef_sadd, !coef_sscale by (rewrite ?sscale_length; congruence || lia). rewrite E, E' by assumption. cring.
  - apply (resolved_lin T g H); assumption.
Qed.
Lemma wavy_add x y : wavy x -> wavy y -> wavy (sadd x y).
Proof. intros X Y. rewrite sadd_lin. now apply wavy_lin. Qed.
Lemma wavy_scale c x : wavy x -> wavy (sscale c x).
Proof.
  intros X. pose proof (wavy_length x X) as L. assert (Q : sscale c x = sadd (sscale c x) (sscale 0 x)).
  { rewrite (scale_0 x N L). symmetry. apply add_zeros. now rewrite sscale_length. }
  rewrite Q. now apply wavy_lin.
Qed.
Lemma fcor2_rotating : fcor2_spectral T g = sscale (2 * om) (A sine).
Proof.
  pose proof (A_len T g H sine) as LA.
  unfold fcor2_spectral. rewrite HO. assert (E : mscale (2 * om) sine = madd (mscale (2 * om) sine) (mscale 0 sine)).
  { apply (mat_ext (g_nlat g) (g_nlon g)); [auto using shaped_madd, shaped_mscale, sine_shaped..|]. intros i j Hi Hj.
    rewrite (mget_madd (g_nlat g) (g_nlon g)), !(mget_mscale (g_nlat g) (g_nlon g)) by auto using shaped_mscale, sine_shaped. ring. }
  rewrite E. unfold to_spectral. rewrite (et_analysis_linear _ _ _ _ H) by apply sine_shaped. fold (A sine). rewrite (scale_0 _ N LA). apply add_zeros. now rewrite sscale_length.
Qed.
Definition wavy_state (z : list C) (s : state K) : Prop := s_grid s = g /\ wavy z /\ s_pvs s = sadd (rotating T g a) z.
Lemma rotating_length : length (rotating T g a) = N.
Proof. unfold rotating. rewrite sscale_length. apply (A_len T g H). Qed.
Lemma wavy_vorticity z s : wavy_state z s -> s_vorticity_spectral T s = sadd (sscale a (A sine)) (sscale 1 z).
Proof.
  intros [G [W E]]. unfold s_vorticity_spectral. rewrite E, G, fcor2_rotating. pose proof (A_len T g H sine) as LA. pose proof (wavy_length z W) as L.
  pose proof rotating_length as LR.
  apply spec_ext; [rewrite ssub_length, !sadd_length; rewrite ?sscale_length, ?sadd_length; congruence|].
  rewrite ssub_length, sadd_length by (rewrite ?sadd_length, ?sscale_length; congruence). intros k Hk.
  rewrite coef_ssub, !coef_sadd by (rewrite ?sadd_length, ?sscale_length; congruence || lia). unfold rotating.
  rewrite !coef_sscale by (congruence || lia). cring.
Qed.
Lemma wavy_flux z s k : wavy_state z s -> (k < N)%nat -> length (s_pv_flux_spectral T s) = N
  /\ coef (s_pv_flux_spectral T s) k = (cx 0 (- frequency om a n (order nt k)) * coef z k)%C.
Proof.
  intros X Hk. pose proof X as [G [W E]]. pose proof (A_len T g H sine) as LA. pose proof (wavy_length z W) as L.
  split; [now apply (flux_length T g H)|].
  assert (F : s_pv_flux_spectral T s = D (madd (mscale (2 * om + a) sine) (mscale 1 (B z))) (sadd (sscale a (A sine)) (sscale 1 z))).
  { unfold s_pv_flux_spectral, s_u, s_v, s_invert_pv. rewrite (wavy_vorticity z s X). unfold s_pv. rewrite E, G.
    unfold divergence_spectral, vorticity_divergence_spectral, wind, flux_divergence. cbn [as_spectral]. cbv zeta.
    replace (szeros_like (sadd (sscale a (A sine)) (sscale 1 z))) with (repeat (RtoC 0) N).
    - replace (B (sadd (rotating T g a) z)) with (madd (mscale (2 * om + a) sine) (mscale 1 (B z))); [reflexivity|].
      rewrite (sadd_lin (rotating T g a)). unfold rotating, to_grid. rewrite <- (ep_sine _ _ _ _ _ HP) at 1.
      rewrite <- (et_synthesis_linear _ _ _ _ H) by assumption. f_equal. f_equal.
      apply spec_ext; [now rewrite !sscale_length|]. rewrite sscale_length. intros i Hi. rewrite !coef_sscale by (rewrite ?sscale_length; assumption). unfold to_spectral. cring.
    - rewrite szeros_repeat, sadd_length, sscale_length by (rewrite !sscale_length; congruence). now rewrite LA. }
  rewrite F, D_field by (apply sine_shaped || apply (B_shape T g H)). rewrite !D_flow by (apply sine_shaped || apply (B_shape T g H) || assumption).
  assert (LL : forall p q x y, length x = N -> length y = N -> length (sadd (sscale p x) (sscale q y)) = N) by (intros; rewrite sadd_length; rewrite !sscale_length; congruence).
  rewrite (coef_lin _ _ _ _ k N) by auto using D_length. rewrite !(coef_lin _ _ _ _ k N) by auto using D_length.
  destruct W as [W1 W2].
  pose proof (ep_rotation_own _ _ _ _ _ HP k) as E1. pose proof (ep_across _ _ _ _ _ HP z k W1 W2 Hk) as E2.
  pose proof (ep_rotation _ _ _ _ _ HP z k W1 W2 Hk) as E3. pose proof (ep_own _ _ _ _ _ HP z k W1 W2) as E4.
  unfold to_spectral, to_grid. rewrite E1, E2, E3, E4. unfold frequency. generalize (coef z k). intros [p q].
  unfold cx, RtoC, Cplus, Cmult. cbn [fst snd]. apply f_equal2; unfold Rdiv; ring.
Qed.
Lemma wavy_tendency (M : bmodel K) z s : m_rhs M = None -> wavy_state z s ->
  exists t, pv_tendency_spectral T M s = Ok t /\ wavy t /\ forall k, (k < N)%nat -> coef t k = (cx 0 (frequency om a n (order nt k)) * coef z k)%C.
Proof.
  intros HM X. pose proof X as [G [W E]]. unfold pv_tendency_spectral. rewrite HM. eexists. split; [reflexivity|].
  assert (Q : forall k, (k < N)%nat -> coef (sopp (s_pv_flux_spectral T s)) k = (cx 0 (frequency om a n (order nt k)) * coef z k)%C).
  { intros k Hk. destruct (wavy_flux z s k X Hk) as [L C]. rewrite coef_sopp, C by lia. generalize (coef z k). intros [p q].
    unfold cx, Copp, Cmult. cbn [fst snd]. apply f_equal2; ring. }
  assert (LF : length (s_pv_flux_spectral T s) = N) by now apply (flux_length T g H). split; [|exact Q]. split; [split|].
  - now rewrite sopp_length.
  - intros k Hk Dk. rewrite Q by assumption. destruct W as [[_ W] _]. rewrite (W k Hk Dk). cring.
  - rewrite opp_scale. assert (PF : plain T g (s_pv_flux_spectral T s)).
    { split; [exact LF|]. unfold s_pv_flux_spectral, divergence_spectral, vorticity_divergence_spectral. rewrite G.
      apply HF; apply shaped_mmul; unfold s_pv, s_u, s_v, s_invert_pv, wind; rewrite G; try apply (B_shape T g H); apply (et_wind_shape _ _ _ _ H). }
    apply (plain_scale T g H (-1)) in PF. apply PF.
Qed.
End Products.

Section Integration.
Context {K : numtype} (T : sphfam) (res rs om0 : R) (nt0 : option Z) (g : grid).
Hypothesis Hg : mk_grid res rs om0 nt0 = Ok g.
Hypothesis H : exact_on T g.
Notation N := (nspec (g_ntrunc g)).
Notation nt := (g_ntrunc g).
Notation om := (g_omega g).
Context (M : bmodel K) (init : state K) (dt : pyval K) (tm : nat -> pyval K) (h a : R) (n : nat) (z : list C).
Hypothesis HT : clock init dt tm.
Hypothesis Hh : to_seconds dt = Ok h.
Hypothesis HP : products_on T g n.
Hypothesis HF : resolved_divergence T g.
Hypothesis HM : m_rhs M = None.
Hypothesis HC : m_coeff M = 0.
Hypothesis HI : rossby_wave T g a n z init.
Notation wavy := (wavy T g n).
Notation wavy_state := (wavy_state T g a n).
Notation rot := (rotating T g a).
Notation w k := (frequency om a n (order nt k)).

Lemma calm d x : length x = N -> apply_diffusion T M g d x = x.
Proof. intros L. apply (zonal_neutral T g H (calc_rs_ne _ _ _ _ _ Hg)); auto. Qed.
Lemma rot_length : length rot = N. Proof. now apply rotating_length. Qed.
Lemma rot_part x k : length x = N -> (k < N)%nat -> (coef (sadd rot x) k - coef rot k)%C = coef x k.
Proof. intros L Hk. pose proof rot_length. rewrite coef_sadd by congruence || lia. ring. Qed.
Lemma rot_add x y c : length x = N -> length y = N -> sadd (sadd rot x) (sscale c y) = sadd rot (sadd x (sscale c y)).
Proof.
  intros X Y. pose proof rot_length as L. assert (L1 : length (sadd rot x) = N) by (rewrite sadd_length; congruence).
  assert (L2 : length (sadd x (sscale c y)) = N) by (rewrite sadd_length; rewrite ?sscale_length; congruence).
  apply spec_ext; [rewrite !sadd_length; rewrite ?sscale_length; congruence|]. rewrite sadd_length, L1 by (rewrite sscale_length; congruence). intros k Hk.
  rewrite coef_sadd, coef_sadd, coef_sscale, coef_sadd, coef_sadd, coef_sscale by (rewrite ?sscale_length; congruence || lia). cring.
Qed.
Lemma rot_filter nu x y x' : length x = N -> length y = N -> length x' = N ->
  sadd (sscale (1 - 2 * nu) (sadd rot x)) (sscale nu (sadd (sadd rot y) (sadd rot x'))) = sadd rot (sadd (sscale (1 - 2 * nu) x) (sscale nu (sadd y x'))).
Proof.
  intros X Y X'. pose proof rot_length as L. assert (LR : forall u, length u = N -> length (sadd rot u) = N) by (intros; rewrite sadd_length; congruence).
  assert (L1 : length (sadd (sadd rot y) (sadd rot x')) = N) by (rewrite sadd_length; rewrite !LR; congruence).
  assert (L2 : length (sadd y x') = N) by (rewrite sadd_length; congruence).
  assert (L3 : length (sadd (sscale (1 - 2 * nu) x) (sscale nu (sadd y x'))) = N) by (rewrite sadd_length; rewrite !sscale_length; congruence).
  assert (L4 : length (sadd (sscale (1 - 2 * nu) (sadd rot x)) (sscale nu (sadd (sadd rot y) (sadd rot x')))) = N) by (rewrite sadd_length; rewrite !sscale_length; rewrite ?LR; congruence).
  apply spec_ext; [rewrite L4, sadd_length; congruence|]. rewrite L4. intros k Hk.
  pose proof (LR x X). pose proof (LR y Y). pose proof (LR x' X').
  rewrite (coef_sadd (sscale _ _)), !coef_sscale, (coef_sadd rot x), (coef_sadd (sadd rot y)), !(coef_sadd rot), (coef_sadd (sscale _ _)), !coef_sscale, (coef_sadd y)
    by (rewrite ?sscale_length; congruence || lia). cring.
Qed.

Lemma wave_first s x : wavy_state x s -> s_time s = tm 0%nat -> exists e x1, euler T M s dt = Ok e /\ wavy_state x1 e
  /\ forall k, (k < N)%nat -> coef x1 k = (cx 1 (w k * h) * coef x k)%C.
Proof.
  intros X E. pose proof X as [G [W EX]]. destruct (wavy_tendency T g H a n HP HF (fcor2_sine _ _ _ _ _ Hg) M x s HM X) as [t [Et [Wt Ct]]].
  pose proof (wavy_length _ _ _ _ W) as L. pose proof (wavy_length _ _ _ _ Wt) as Lt. destruct HT as [_ [_ [CA _]]].
  unfold euler. rewrite Hh. cbn [bind]. rewrite Et. cbn [bind]. rewrite E, CA. cbn [bind]. rewrite G, EX, rot_add by assumption.
  assert (W1 : wavy (sadd x (sscale h t))) by (apply (wavy_add T g H); [assumption|now apply (wavy_scale T g H)]).
  rewrite calm by (rewrite sadd_length, rot_length; [reflexivity|rewrite rot_length; symmetry; now apply (wavy_length T g n)]).
  exists (mkState g (tm 1%nat) (sadd rot (sadd x (sscale h t)))), (sadd x (sscale h t)). split; [reflexivity|]. split; [now split|].
  intros k Hk. rewrite coef_sadd, coef_sscale, Ct by (rewrite ?sscale_length; congruence || lia). generalize (coef x k). intros [p q].
  unfold cx, RtoC, Cplus, Cmult. cbn [fst snd]. apply f_equal2; ring.
Qed.
Lemma wave_next s b y x i : wavy_state y s -> wavy_state x b -> s_time s = tm i -> s_time b = tm (S i) ->
  exists s' b' y' x', leapfrog T M s b default_nu = Ok (s', b') /\ wavy_state y' s' /\ wavy_state x' b'
  /\ forall k, (k < N)%nat -> coef x' k = (coef y k + cx 0 (2 * (w k * h)) * coef x k)%C
    /\ coef y' k = (RtoC (1 - 2 * (1 / 5)) * coef x k + RtoC (1 / 5) * (coef y k + coef x' k))%C.
Proof.
  intros Y X TA TB. pose proof Y as [Gs [WY EY]]. pose proof X as [G [W EX]].
  destruct (wavy_tendency T g H a n HP HF (fcor2_sine _ _ _ _ _ Hg) M x b HM X) as [t [Et [Wt Ct]]].
  pose proof (wavy_length _ _ _ _ W) as L. pose proof (wavy_length _ _ _ _ Wt) as Lt. pose proof (wavy_length _ _ _ _ WY) as LY. destruct HT as [_ [_ [CA CS]]].
  unfold leapfrog. rewrite TA, TB, CS. cbn [bind]. rewrite Hh. cbn [bind]. rewrite Et. cbn [bind]. rewrite CA. cbn [bind]. rewrite G, EX, EY, rot_add by assumption.
  set (x' := sadd y (sscale (2 * h) t)).
  assert (W1 : wavy x') by (apply (wavy_add T g H); [assumption|now apply (wavy_scale T g H)]). pose proof (wavy_length _ _ _ _ W1) as L'.
  rewrite calm by (rewrite sadd_length, rot_length; [reflexivity|rewrite rot_length; congruence]). rewrite rot_filter by assumption.
  set (y' := sadd (sscale (1 - 2 * default_nu) x) (sscale default_nu (sadd y x'))).
  assert (W2 : wavy y') by (apply (wavy_lin T g H); [assumption|now apply (wavy_add T g H)]).
  do 2 eexists. exists y', x'. split; [reflexivity|]. split; [now split|]. split; [now split|]. intros k Hk. split.
  - unfold x'. rewrite coef_sadd, coef_sscale, Ct by (rewrite ?sscale_length; congruence || lia). generalize (coef y k), (coef x k). intros [p q] [u v].
    unfold cx, RtoC, Cplus, Cmult. cbn [fst snd]. apply f_equal2; ring.
  - unfold y', default_nu. rewrite coef_sadd, !coef_sscale, coef_sadd; rewrite ?sscale_length, ?sadd_length; congruence || lia || reflexivity.
Qed.

Notation pair := (pair T M init dt).
Lemma wave_pair i : steps T M init dt i = Ok (pair i) /\ exists y x, wavy_state y (fst (pair i)) /\ wavy_state x (snd (pair i)).
Proof.
  assert (XI : wavy_state z init) by (destruct HI as [G [W1 [W2 E]]]; now split).
  induction i as [|i [E [y [x [Y X]]]]].
  - destruct (wave_first init z XI (proj1 HT)) as [e [x1 [Ee [We _]]]]. unfold Proofs_Relax.pair. cbn [steps]. rewrite Ee. cbn [bind fst snd]. split; [reflexivity|]. now exists z, x1.
  - destruct (pair i) as [s b] eqn:Ep. cbn [fst snd] in *. destruct (clock_times T M init dt tm HT i s b E) as [T1 T2].
    destruct (wave_next s b y x i Y X T1 T2) as [s' [b' [y' [x' [EL [Y' [X' _]]]]]]]. unfold Proofs_Relax.pair. cbn [steps]. rewrite E. cbn [bind fst snd]. rewrite EL.
    split; [reflexivity|]. now exists y', x'.
Qed.
Lemma wave_trajectory i : trajectory T M init dt i (fst (pair i)) /\ exists y, rossby_wave T g a n y (fst (pair i)).
Proof.
  destruct (wave_pair i) as [E [y [x [[G [[W1 W2] EY]] _]]]]. split; [exists (snd (pair i)); rewrite E; now destruct (pair i)|]. exists y. now split.
Qed.
Lemma state_part y (s : state K) k : wavy_state y s -> (k < N)%nat -> wave_part T g a s k = coef y k.
Proof. intros [G [W E]] Hk. unfold wave_part. rewrite E. apply rot_part; [now apply (wavy_length T g n)|assumption]. Qed.
Lemma wave_oscillates k : (k < N)%nat ->
  oscillation (w k * h) (fun i => wave_part T g a (fst (pair i)) k) (fun i => wave_part T g a (snd (pair i)) k).
Proof.
  intros Hk. assert (XI : wavy_state z init) by (destruct HI as [G [W1 [W2 E]]]; now split). split.
  - destruct (wave_first init z XI (proj1 HT)) as [e [x1 [Ee [We Ce]]]]. unfold Proofs_Relax.pair. cbn [steps]. rewrite Ee. cbn [bind fst snd].
    rewrite (state_part x1 e k We Hk), (state_part z init k XI Hk). now apply Ce.
  - intros i. destruct (wave_pair i) as [E [y [x [Y X]]]]. destruct (pair i) as [s b] eqn:Ep. cbn [fst snd] in *.
    destruct (clock_times T M init dt tm HT i s b E) as [T1 T2]. destruct (wave_next s b y x i Y X T1 T2) as [s' [b' [y' [x' [EL [Y' [X' Q]]]]]]].
    assert (EE : pair (S i) = (s', b')) by (unfold Proofs_Relax.pair; cbn [steps]; rewrite E; cbn [bind fst snd]; now rewrite EL). rewrite EE. cbn [fst snd].
    rewrite (state_part _ _ k Y Hk), (state_part _ _ k X Hk), (state_part _ _ k Y' Hk), (state_part _ _ k X' Hk). now apply Q.
Qed.
Lemma wave_start k : (k < N)%nat -> wave_part T g a (fst (pair 0)) k = coef z k.
Proof.
  intros Hk. assert (XI : wavy_state z init) by (destruct HI as [G [W1 [W2 E]]]; now split).
  destruct (wave_first init z XI (proj1 HT)) as [e [x1 [Ee _]]]. unfold Proofs_Relax.pair. cbn [steps]. rewrite Ee. cbn [bind fst snd]. now apply state_part.
Qed.
End Integration.
