(** Angular momentum of forced flows: proofs (C144). *)
From Coq Require Export String.
From Verif Require Import Base Model_Grid Model_Time Model_Spectral Model_State Model_Run Model_RHS.
From Verif Require Import Spec_Grid Spec_Spectral Spec_State Spec_Instance Spec_Run Spec_RHS Spec_Symmetry Spec_Relax Spec_Waves Spec_Harmonics Spec_Conserve Spec_PVSource Spec_Torque.
From Verif Require Import Proofs_Base Proofs_Trig Proofs_Grid Proofs_Spectral Proofs_Instance Proofs_State Proofs_Run Proofs_Step Proofs_Relax Proofs_Waves Proofs_Orog Proofs_HarmQuad Proofs_HarmSum Proofs_Harmonics Proofs_HarmProd Proofs_HarmCons Proofs_Conserve Proofs_PVSource.
From Verif Require Import Props_RHS Props_Symmetry Props_Harmonics Props_Conserve.
From Coquelicot Require Import Coquelicot.
From Coq Require Import List Lia Lra.
Open Scope R_scope.

Section Torques.
Context {K : numtype} (res rs om : R) (nt0 : option Z) (g : grid).
Hypothesis Hg : mk_grid res rs om nt0 = Ok g.
Variable D : nat.
Hypothesis HDN : (2 * D < g_nlat g)%nat.
Hypothesis HDM : (2 * D < g_nlon g)%nat.
Hypothesis HD1 : (1 <= D)%nat.
Hypothesis HN1 : (1 <= g_ntrunc g)%nat.
Notation T := (harmonics D).
Notation N := (g_nlat g).
Notation M := (g_nlon g).
Notation nt := (g_ntrunc g).
Notation L := (nspec (g_ntrunc g)).
Notation r := (g_rsphere g).
Notation plain := (plain_state (K := K) g D).
Let HN := HN res rs om nt0 g Hg D HDN HDM.
Let Hr := Hr res rs om nt0 g Hg.
Let HE : exact_on T g := HE res rs om nt0 g Hg D HDN HDM.

Lemma one_lt : (1 < L)%nat.
Proof. destruct nt as [|t]; [lia|]. rewrite nspec_S. lia. Qed.
Lemma phi_row i : (i < N)%nat -> nth i (g_phi g) 0 = row_lat N i.
Proof.
  intros Hi. pose proof HN. assert (P : 0 < INR (N - 1)) by (apply lt_0_INR; lia). unfold g_phi, g_lat, linspace_end. rewrite tab_map, tab_nth by exact Hi. unfold row_lat, deg2rad. field. lra.
Qed.
Lemma torque_coef F : torque g F = r ^ 2 * (mean_square 0 1 / 2 * Re (coef (to_spectral T g F) 1)).
Proof.
  unfold torque. rewrite mean_of. pose proof one_lt as H1.
  assert (O1 : order nt 1 = 0%nat) by (destruct nt as [|t]; [lia|reflexivity]). assert (E1 : degree nt 1 = 1%nat) by (destruct nt as [|t]; [lia|reflexivity]).
  unfold to_spectral, sph, harmonics. cbn [sh_grdtospec]. unfold h_analysis. rewrite (coef_coefs D nt) by exact H1. rewrite O1, E1. destruct (Nat.leb_spec 1 D) as [_|V]; [|lia].
  pose proof (mean_square_pos 0 1 ltac:(lia)) as P. rewrite correlate_corr.
  rewrite (qmean_ext N M _ (fun i j => r ^ 2 * (sin (row_lat N i) * mget F i j))) by (intros i j Hi Hj; rewrite phi_row by exact Hi; ring). rewrite qmean_scal. f_equal.
  assert (E : Re (corr h_value N M 0 1 (mget F)) = 2 * qmean N M (fun i j => sin (row_lat N i) * mget F i j)).
  { unfold corr, qmean. cbn [Re fst]. rewrite <- Rsum_tab_scal. f_equal. apply tab_ext. intros i Hi. rewrite value_01, (Rsum_tab_scal M (sin (row_lat N i)) (fun j => mget F i j)). change (INR 0) with 0.
    rewrite (tab_ext M (fun j => mget F i j * cos (0 * col_lon M j)) (fun j => mget F i j)); [unfold Rdiv; ring|]. intros j Hj. rewrite Rmult_0_l, cos_0. ring. }
  destruct (corr h_value N M 0 1 (mget F)) as [a b]. cbn [Re fst] in E. cbn [Cmult RtoC Re fst snd]. rewrite E. field. lra.
Qed.
Lemma torque_rows F : (forall i, (i < N)%nat -> circle_mean g F i = 0) -> torque g F = 0.
Proof.
  intros H. unfold torque. rewrite mean_of. unfold qmean. apply Rsum_tab_zero. intros i Hi. specialize (H i Hi). unfold circle_mean in H.
  rewrite (Rsum_tab_scal M (r ^ 2 * sin (nth i (g_phi g) 0)) (fun j => mget F i j)). unfold Rdiv in *. rewrite Rmult_assoc, H. ring.
Qed.
Lemma momentum_pv (s e : state K) c : plain s -> plain e -> Re (coef (s_pvs e) 1) = Re (coef (s_pvs s) 1) + c -> momentum T e = momentum T s + r ^ 2 * (mean_square 0 1 / 2 * c).
Proof.
  intros S E H. rewrite (momentum_eq res rs om nt0 g Hg D HDN HDM e HD1 HN1 E), (momentum_eq res rs om nt0 g Hg D HDN HDM s HD1 HN1 S).
  rewrite (vo_coef res rs om nt0 g Hg D HDN HDM e 1 E one_lt), (vo_coef res rs om nt0 g Hg D HDN HDM s 1 S one_lt).
  destruct (coef (s_pvs s) 1), (coef (s_pvs e) 1), (coef (fcor2_spectral T g) 1). cbn [Re Cplus Cmult RtoC fst snd] in *. rewrite H. ring.
Qed.
Lemma forced_tendency_1 (m : bmodel K) f s F t : m_rhs m = Some f -> plain s -> f s = Ok (FMat F) -> pv_tendency_spectral T m s = Ok t ->
  plain_spec g D t /\ Re (coef t 1) = Re (coef (to_spectral T g F) 1).
Proof.
  intros HM S EF E. split; [apply (forced_tendency res rs om nt0 g Hg D HDN HDM m f s F t HM S EF E)|]. pose proof S as [G P]. unfold pv_tendency_spectral in E. rewrite HM, EF in E. cbn [bind] in E. injection E as <-. rewrite G.
  pose proof (flux_plain res rs om nt0 g Hg D HDN HDM s S) as PF. pose proof (plain_analysis res rs om nt0 g Hg D HDN HDM F) as PA.
  pose proof (plain_length _ _ _ PF) as LF. pose proof (plain_length _ _ _ PA) as LA. pose proof one_lt as H1.
  rewrite coef_sadd by (rewrite ?sopp_length; congruence). rewrite coef_sopp by congruence. pose proof (flux_mom res rs om nt0 g Hg D HDN HDM s HD1 HN1 S) as Z.
  destruct (coef (s_pv_flux_spectral T s) 1), (coef (to_spectral T g F) 1). cbn [Re Cplus Copp fst snd] in *. rewrite Z. ring.
Qed.
Lemma advance_1 (m : bmodel K) h q y t : m_coeff m = 0 -> plain_spec g D y -> plain_spec g D t ->
  plain_spec g D (apply_diffusion T m g h (sadd y (sscale q t))) /\ Re (coef (apply_diffusion T m g h (sadd y (sscale q t))) 1) = Re (coef y 1) + q * Re (coef t 1).
Proof.
  intros HC Y X. pose proof (plain_length _ _ _ Y) as LY. pose proof (plain_length _ _ _ X) as LX. pose proof one_lt as H1.
  assert (LS : length (sadd y (sscale q t)) = L) by (rewrite sadd_length; rewrite ?sscale_length; congruence).
  assert (C : forall k, (k < L)%nat -> coef (sadd y (sscale q t)) k = Cplus (Cmult (RtoC 1) (coef y k)) (Cmult (RtoC q) (coef t k))).
  { intros k Hk. rewrite coef_sadd by (rewrite ?sscale_length; congruence). rewrite coef_sscale by congruence. ring. }
  rewrite (calm T res rs om nt0 g Hg HE m HC h _ LS). split; [apply (plain_lin g D 1 q _ _ _ Y X LS C)|]. rewrite C by exact H1. destruct (coef y 1), (coef t 1). cbn. ring.
Qed.
Lemma forced_euler_1 (m : bmodel K) f s dt h F e : m_rhs m = Some f -> m_coeff m = 0 -> plain s -> f s = Ok (FMat F) -> to_seconds dt = Ok h -> euler T m s dt = Ok e ->
  plain e /\ Re (coef (s_pvs e) 1) = Re (coef (s_pvs s) 1) + h * Re (coef (to_spectral T g F) 1).
Proof.
  intros HM HC S EF Hh E. pose proof S as [G P]. unfold euler in E. rewrite Hh in E. cbn [bind] in E. destruct (pv_tendency_spectral T m s) as [t|x] eqn:ET; [|discriminate]. cbn [bind] in E.
  destruct (py_add (s_time s) dt) as [tm|x]; [|discriminate]. cbn [bind] in E. injection E as <-. destruct (forced_tendency_1 m f s F t HM S EF ET) as [PT CT].
  rewrite G. destruct (advance_1 m h h _ _ HC P PT) as [PA CA]. split; [split; [reflexivity|exact PA]|]. cbn [s_pvs]. rewrite CA, CT. reflexivity.
Qed.
Lemma forced_leapfrog_1 (m : bmodel K) f a s nu F s' e : m_rhs m = Some f -> m_coeff m = 0 -> plain a -> plain s -> f s = Ok (FMat F) -> leapfrog T m a s nu = Ok (s', e) -> exists h,
  plain s' /\ plain e /\ Re (coef (s_pvs e) 1) = Re (coef (s_pvs a) 1) + 2 * h * Re (coef (to_spectral T g F) 1)
  /\ Re (coef (s_pvs s') 1) = (1 - 2 * nu) * Re (coef (s_pvs s) 1) + nu * (Re (coef (s_pvs a) 1) + Re (coef (s_pvs e) 1)).
Proof.
  intros HM HC A S EF E. pose proof S as [G P]. pose proof A as [GA PA]. pose proof (plain_length _ _ _ P) as LP. pose proof (plain_length _ _ _ PA) as LA. pose proof one_lt as H1.
  unfold leapfrog in E. destruct (py_sub (s_time s) (s_time a)) as [dt|x]; [|discriminate]. cbn [bind] in E. destruct (to_seconds dt) as [h|x]; [|discriminate]. cbn [bind] in E.
  destruct (pv_tendency_spectral T m s) as [t|x] eqn:ET; [|discriminate]. cbn [bind] in E. destruct (py_add (s_time s) dt) as [tm|x]; [|discriminate]. cbn [bind] in E. injection E as <- <-.
  destruct (forced_tendency_1 m f s F t HM S EF ET) as [PT CT]. rewrite G. destruct (advance_1 m (2 * h) (2 * h) _ _ HC PA PT) as [PN CN]. exists h. cbn [s_pvs s_grid].
  set (n := apply_diffusion _ _ _ _ _) in *. pose proof (plain_length _ _ _ PN) as LN.
  assert (PB : plain_spec g D (sadd (s_pvs a) n)) by (apply (plain_lin g D 1 1 _ _ _ PA PN); [rewrite sadd_length; congruence|]; intros k Hk; rewrite coef_sadd by congruence; ring).
  pose proof (plain_length _ _ _ PB) as LB.
  assert (CQ : forall k, (k < L)%nat -> coef (sadd (sscale (1 - 2 * nu) (s_pvs s)) (sscale nu (sadd (s_pvs a) n))) k = Cplus (Cmult (RtoC (1 - 2 * nu)) (coef (s_pvs s) k)) (Cmult (RtoC nu) (coef (sadd (s_pvs a) n) k))).
  { intros k Hk. rewrite (coef_sadd (sscale (1 - 2 * nu) (s_pvs s))) by (rewrite ?sscale_length; congruence). rewrite !coef_sscale by congruence. reflexivity. }
  split; [split; [reflexivity|]|split; [split; [reflexivity|exact PN]|split]].
  - cbn [s_pvs]. apply (plain_lin g D (1 - 2 * nu) nu _ _ _ P PB); [rewrite sadd_length; rewrite ?sscale_length; congruence|exact CQ].
  - rewrite CN, CT. reflexivity.
  - rewrite CQ by exact H1. rewrite (coef_sadd (s_pvs a)) by congruence. destruct (coef (s_pvs s) 1), (coef (s_pvs a) 1), (coef n 1). cbn. ring.
Qed.
Lemma no_torque (m : bmodel K) f init dt i s new : m_rhs m = Some f -> m_coeff m = 0 -> (forall s x, plain s -> f s = Ok x -> exists F, x = FMat F /\ torque g F = 0) ->
  plain init -> steps T m init dt i = Ok (s, new) ->
  plain s /\ plain new /\ Re (coef (s_pvs s) 1) = Re (coef (s_pvs init) 1) /\ Re (coef (s_pvs new) 1) = Re (coef (s_pvs init) 1).
Proof.
  intros HM HC HF S0.
  assert (HV : forall s t, plain s -> pv_tendency_spectral T m s = Ok t -> exists F, f s = Ok (FMat F) /\ Re (coef (to_spectral T g F) 1) = 0).
  { intros b t Pb Et. unfold pv_tendency_spectral in Et. rewrite HM in Et. destruct (f b) as [x|x] eqn:Ef; [|discriminate]. destruct (HF b x Pb Ef) as [F [-> Z]]. exists F. split; [reflexivity|].
    rewrite torque_coef in Z. pose proof (mean_square_pos 0 1 ltac:(lia)) as P1. assert (P2 : 0 < r ^ 2) by (apply pow_lt, Hr). apply Rmult_integral in Z as [Z|Z]; [lra|]. apply Rmult_integral in Z as [Z|Z]; [lra|exact Z]. }
  revert s new. induction i as [|i IH]; intros s new E.
  - cbn [steps] in E. destruct (euler T m init dt) as [e|x] eqn:Ee; [|discriminate]. cbn [bind] in E. injection E as <- <-.
    pose proof Ee as Ee'. unfold euler in Ee'. destruct (to_seconds dt) as [h|x] eqn:Eh; [|discriminate]. cbn [bind] in Ee'. destruct (pv_tendency_spectral T m init) as [t|x] eqn:Et; [|discriminate].
    destruct (HV init t S0 Et) as [F [Ef Z]]. destruct (forced_euler_1 m f init dt h F e HM HC S0 Ef Eh Ee) as [Pe Ce]. repeat split; try apply S0; try apply Pe. rewrite Ce, Z. ring.
  - cbn [steps] in E. destruct (steps T m init dt i) as [[a b]|x] eqn:Es; [|discriminate]. cbn [bind fst snd] in E. destruct (IH a b eq_refl) as [Pa [Pb [Ca Cb]]].
    pose proof E as E'. unfold leapfrog in E'. destruct (py_sub (s_time b) (s_time a)) as [dd|x]; [|discriminate]. cbn [bind] in E'. destruct (to_seconds dd) as [h|x]; [|discriminate]. cbn [bind] in E'.
    destruct (pv_tendency_spectral T m b) as [t|x] eqn:Et; [|discriminate]. clear E'. destruct (HV b t Pb Et) as [F [Ef Z]].
    destruct (forced_leapfrog_1 m f a b _ F s new HM HC Pa Pb Ef E) as [h' [Ps [Pn [Cn Cs]]]]. assert (QN : Re (coef (s_pvs new) 1) = Re (coef (s_pvs init) 1)) by (rewrite Cn, Z, Ca; ring).
    split; [exact Ps|]. split; [exact Pn|]. split; [|exact QN]. rewrite Cs, QN, Ca, Cb. ring.
Qed.

(** a wave over a relief of its own shape, a quarter of a wavelength apart *)
Lemma wave_over_relief (time : pyval K) : (D + 2 < M)%nat -> exists rel hh (s : state K), orography rel g = Ok hh /\ plain s /\ s_time s = time
  /\ qmean N M (fun i j => sin (row_lat N i) * (mget (s_u T s) i j * mget (fst (gradient T g hh)) i j + mget (s_v T s) i j * mget (snd (gradient T g hh)) i j)) = - (mean_square 1 1 / 2).
Proof.
  intros B2. destruct (mk_grid_counts _ _ _ _ _ Hg) as [_ [MP NP]]. set (k := S nt).
  destruct (wave_index nt HN1) as [HK [OK DK]]. fold k in HK, OK, DK.
  set (z := tab L (fun l => if Nat.eqb l k then RtoC 1 else RtoC 0)). set (a := tab L (fun l => if Nat.eqb l k then (0, -1) else RtoC 0)).
  assert (CZ : forall l, (l < L)%nat -> coef z l = if Nat.eqb l k then RtoC 1 else RtoC 0) by (intros l Hl; apply coef_tab, Hl).
  assert (CA : forall l, (l < L)%nat -> coef a l = if Nat.eqb l k then (0, -1) else RtoC 0) by (intros l Hl; apply coef_tab, Hl).
  assert (LZ : length z = L) by apply tab_length. assert (LA : length a = L) by apply tab_length.
  assert (PZ : plain_spec g D z).
  { split; [split; [exact LZ|]|]; intros l Hl V; rewrite CZ by exact Hl; destruct (Nat.eqb_spec l k) as [->|]; try reflexivity. rewrite DK in V. lia. }
  assert (PA : plain_spec g D a).
  { split; [split; [exact LA|]|]; intros l Hl V; rewrite CA by exact Hl; destruct (Nat.eqb_spec l k) as [->|]; try reflexivity; [rewrite DK in V; lia|rewrite OK in V; discriminate]. }
  assert (ZD : of_degree nt 1 z).
  { split; [exact LZ|]. intros l Hl V. rewrite CZ by exact Hl. destruct (Nat.eqb_spec l k) as [->|]; [contradiction|reflexivity]. }
  assert (ZR : resolved (sph T g) nt z) by (apply (C133_resolved _ _ _ _ _ Hg D HDN HDM z LZ); intros l Hl; split; intros V; now apply PZ).
  assert (AR : resolved (sph T g) nt a) by (apply (C133_resolved _ _ _ _ _ Hg D HDN HDM a LA); intros l Hl; split; intros V; now apply PA).
  set (hh := to_grid T g a). assert (SH : shaped N M hh) by apply (et_shape _ _ _ _ HE).
  assert (EA : to_spectral T g hh = a) by exact AR.
  set (s := mkState (K := K) g time (sadd (fcor2_spectral T g) z)).
  pose proof (plain_analysis res rs om nt0 g Hg D HDN HDM (g_fcor2 g)) as PF. fold (fcor2_spectral T g) in PF. pose proof (plain_length _ _ _ PF) as LF.
  assert (LS : length (s_pvs s) = L) by (cbn [s s_pvs]; rewrite sadd_length; congruence).
  assert (S : plain s).
  { split; [reflexivity|]. apply (plain_lin g D 1 1 _ _ _ PF PZ); [exact LS|]. intros l Hl. cbn [s s_pvs]. rewrite coef_sadd by congruence. ring. }
  assert (VO : s_vorticity_spectral T s = z).
  { apply (coef_ext L); [apply (plain_length g D), (vo_plain res rs om nt0 g Hg D HDN HDM s S)|exact LZ|]. intros l Hl. rewrite (vo_coef res rs om nt0 g Hg D HDN HDM s l S Hl). cbn [s s_pvs]. rewrite coef_sadd by congruence. rewrite Proofs_Harmonics.RtoC_m1. ring. }
  exists (RField (g_lon g) (g_lat g) hh), hh, s. split; [apply C42_same_grid; [lia|lia|exact SH]|]. split; [exact S|]. split; [reflexivity|].
  destruct (uv_eq res rs om nt0 g Hg D HDN HDM s S) as [EU EV]. rewrite VO in EU, EV.
  pose proof (flow_eq res rs om nt0 g Hg D z PZ) as FW.
  pose proof (C133_products _ _ _ _ _ Hg HN1 D 1 ltac:(lia) HDN HDM ltac:(lia) ltac:(lia)) as HP.
  pose proof (div_adjoint N M D nt r Hr a (mmul (sine_lat N M) (mat_of N M (flow_u N M r z))) (mmul (sine_lat N M) (mat_of N M (flow_v N M r z))) (proj1 PA)) as E. cbv beta in E.
  set (fd := snd (h_getvrtdiv D r N M _ _ _)) in E.
  assert (FD : fd = flux_divergence (sph T g) nt (sine_lat N M) z) by (unfold flux_divergence; rewrite FW; reflexivity).
  assert (IN : inner nt a fd = mean_square 1 1 / 2).
  { unfold inner. rewrite (Rsum_tab_one L _ k HK).
    - pose proof (ep_across _ _ _ _ _ HP z k ZD ZR HK) as EC. rewrite FD, EC, CA, CZ, Nat.eqb_refl, OK, DK by exact HK. unfold cdot. cbn. field.
    - intros l Hl V. rewrite CA by exact Hl. apply Nat.eqb_neq in V. rewrite V, cdot_0_l. ring. }
  rewrite <- IN, E. rewrite <- (Rmult_1_l (- (- _ * _))). rewrite Rmult_1_l, Ropp_mult_distr_l, Ropp_involutive, <- qmean_scal. apply qmean_ext. intros i j Hi Hj. rewrite EU, EV.
  rewrite !(mget_mmul N M) by (assumption || apply shaped_mat_of). unfold sine_lat. rewrite !mget_mat_of by assumption. unfold gradient. rewrite EA. unfold sph, harmonics. cbn [sh_getgrad]. unfold h_getgrad, sample. cbn [fst snd]. rewrite !mget_mat_of by assumption.
  unfold row_lat. pose proof Hr. field. pose proof HN. assert (0 < INR (N - 1)) by (apply lt_0_INR; lia). lra.
Qed.
End Torques.
