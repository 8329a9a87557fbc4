(** Global mean of PV and of orographic forcing: proofs (C143). *)
From Coq Require Export String.
From Verif Require Import Base Model_Grid Model_Time Model_Spectral Model_State Model_Run Model_RHS.
From Verif Require Import Spec_Grid Spec_Spectral Spec_State Spec_Instance Spec_Run Spec_RHS Spec_Symmetry Spec_Relax Spec_Waves Spec_Harmonics Spec_Conserve Spec_PVSource.
From Verif Require Import Proofs_Base Proofs_Trig Proofs_Grid Proofs_Spectral Proofs_Instance Proofs_State Proofs_Run Proofs_Step Proofs_Relax Proofs_Waves Proofs_Orog Proofs_HarmQuad Proofs_HarmSum Proofs_Harmonics Proofs_HarmProd Proofs_HarmCons Proofs_Conserve.
From Verif Require Import Props_Symmetry Props_Harmonics Props_Conserve.
From Coquelicot Require Import Coquelicot.
From Coq Require Import List Lia Lra.
Import ListNotations.
Open Scope R_scope.

Lemma mean_square_00 : mean_square 0 0 = 1.
Proof.
  unfold mean_square. cbn [Nat.eqb]. rewrite Rmult_1_l. change (mean (fun z => (1 - z ^ 2) ^ 0 * (rodrigues 0 0 z * rodrigues 0 0 z)) = 1).
  rewrite (mean_ext _ (fun _ => 1)); [apply mean_const|]. intros z. rewrite !rodrigues_00. ring.
Qed.
Lemma qmean_corr N M F : qmean N M F = Re (corr h_value N M 0 0 F).
Proof.
  unfold qmean, corr. cbn [Re fst]. f_equal. apply tab_ext. intros i Hi. unfold h_value. rewrite rodrigues_00. change (INR 0) with 0.
  rewrite (tab_ext M (fun j => F i j * cos (0 * col_lon M j)) (fun j => F i j)); [cbn [pow]; ring|]. intros j Hj. rewrite Rmult_0_l, cos_0. ring.
Qed.

(** the position of the harmonic of order and degree 1 *)
Lemma wave_index nt : (1 <= nt)%nat -> (S nt < nspec nt)%nat /\ order nt (S nt) = 1%nat /\ degree nt (S nt) = 1%nat.
Proof.
  intros H. split; [destruct nt as [|t]; [lia|]; rewrite nspec_S; pose proof (Proofs_Spectral.nspec_pos t); lia|].
  unfold order, degree. cbn [order_from degree_from]. rewrite Nat.ltb_irrefl, Nat.sub_diag. destruct nt as [|t]; [lia|]. split; reflexivity.
Qed.
Lemma circle_swap L M (F : nat -> nat -> R) : Rsum (tab M (fun j => Rsum (tab L (fun k => F k j)))) = Rsum (tab L (fun k => Rsum (tab M (fun j => F k j)))).
Proof.
  induction L as [|L IH]; [rewrite Rsum_tab_zero; reflexivity|]. rewrite Rsum_tab_S, <- IH, <- Rsum_tab_plus. f_equal. apply tab_ext. intros j Hj. now rewrite Rsum_tab_S.
Qed.

Section Means.
Context {K : numtype} (res rs om : R) (nt0 : option Z) (g : grid).
Hypothesis Hg : mk_grid res rs om nt0 = Ok g.
Variable D : nat.
Hypothesis HDN : (2 * D < g_nlat g)%nat.
Hypothesis HDM : (2 * D < g_nlon g)%nat.
Notation T := (harmonics D).
Notation N := (g_nlat g).
Notation M := (g_nlon g).
Notation nt := (g_ntrunc g).
Notation L := (nspec (g_ntrunc g)).
Notation r := (g_rsphere g).
Notation plain := (plain_state (K := K) g D).
Let HN := HN res rs om nt0 g Hg D HDN HDM.
Let Hr := Hr res rs om nt0 g Hg.
Let HE : exact_on T g := HE res rs om nt0 g Hg D HDN HDM.

(** the first coefficient is the mean *)
Lemma mean_synthesis x : truncated D nt x -> qmean N M (fun i j => sum_at h_value x (row_lat N i) (col_lon M j)) = Re (coef x 0).
Proof.
  intros X. rewrite qmean_corr. pose proof (Proofs_Spectral.nspec_pos nt) as P.
  assert (E : order nt 0 = 0%nat /\ degree nt 0 = 0%nat) by (destruct (degree_first nt) as [A B]; now split).
  pose proof (field_value N M D nt HN HDN HDM 0 0 0 P (proj1 E) (proj2 E) ltac:(lia) x X) as Q. cbv beta zeta in Q. rewrite Q, mean_square_00. unfold lead. cbn [Nat.eqb]. cbn. ring.
Qed.
Lemma mean_pv_coef s : plain s -> mean_pv T s = Re (coef (s_pvs s) 0).
Proof. intros S. unfold mean_pv. rewrite (pv_eq g D s S). pose proof S as [-> [P _]]. rewrite mean_of. now apply mean_synthesis. Qed.
Lemma mean_analysis f : coef (to_spectral T g f) 0 = RtoC (sphere_mean g f).
Proof.
  unfold to_spectral, sph, harmonics. cbn [sh_grdtospec]. unfold h_analysis. pose proof (Proofs_Spectral.nspec_pos nt) as P. rewrite (coef_coefs D nt) by exact P.
  destruct (degree_first nt) as [A B]. rewrite A, B. cbn [Nat.leb]. rewrite mean_square_00, Rinv_1, Cmult_1_l, correlate_corr.
  pose proof (corr_0_real N M h_value 0 (mget f)) as I. change (sphere_mean g f) with (qmean N M (mget f)). rewrite qmean_corr. destruct (corr h_value N M 0 0 (mget f)). cbn in *. now rewrite I.
Qed.

(** the mean of the zonal derivative along a circle *)
Lemma circle_gradient f i : (i < N)%nat -> Rsum (tab M (fun j => mget (fst (gradient T g f)) i j)) = 0.
Proof.
  intros Hi. unfold gradient. pose proof (plain_analysis res rs om nt0 g Hg D HDN HDM f) as [[LX Z] _]. set (x := to_spectral T g f) in *.
  unfold sph, harmonics. cbn [sh_getgrad]. unfold h_getgrad, sample. cbn [fst].
  assert (LI : length (map i_times x) = L) by now rewrite map_length.
  rewrite (tab_ext M _ (fun j => / r * Rsum (tab L (fun k => h_east (order nt k) (degree nt k) (row_lat N i) * swing (coef (map i_times x) k) (INR (order nt k) * col_lon M j))))).
  2:{ intros j Hj. rewrite mget_mat_of by assumption. rewrite (sum_at_eq nt) by exact LI. unfold Rdiv. ring. }
  rewrite Rsum_tab_scal. apply Rmult_eq_0_compat_l.
  pose proof (circle_swap L M (fun k j => h_east (order nt k) (degree nt k) (row_lat N i) * swing (coef (map i_times x) k) (INR (order nt k) * col_lon M j))) as W. cbv beta in W. rewrite W.
  apply Rsum_tab_zero. intros k Hk. rewrite Rsum_tab_scal.
  destruct (Nat.eq_dec (order nt k) 0) as [O|O]; [rewrite O, east_0; ring|].
  destruct (le_lt_dec (degree nt k) D) as [G|G].
  - pose proof (order_degree nt k Hk) as [Q _]. pose proof (swing_cos M ltac:(lia) (coef (map i_times x) k) 0 (order nt k) ltac:(lia)) as E. apply Nat.eqb_neq in O. rewrite O in E.
    rewrite (tab_ext M _ (fun j => swing (coef (map i_times x) k) (INR (order nt k) * col_lon M j))) in E by (intros; change (INR 0) with 0; rewrite Rmult_0_l, cos_0; ring).
    assert (P : 0 < INR M) by (apply lt_0_INR; lia). apply (f_equal (fun v => v * INR M)) in E. unfold Rdiv in E. rewrite Rmult_assoc, Rinv_l, Rmult_1_r in E by lra. rewrite E. ring.
  - rewrite coef_i_times, (Z k Hk G), i_times_0. rewrite Rsum_tab_zero; [ring|]. intros j Hj. apply swing_0.
Qed.
(** flows without divergence: the mean of u.grad h *)
Lemma no_mean_advection f x : plain_spec g D x ->
  qmean N M (fun i j => flow_u N M r x i j * mget (fst (gradient T g f)) i j + flow_v N M r x i j * mget (snd (gradient T g f)) i j) = 0.
Proof.
  intros P. unfold gradient. pose proof (plain_analysis res rs om nt0 g Hg D HDN HDM f) as [A _]. set (a := to_spectral T g f) in *.
  pose proof (div_adjoint N M D nt r Hr a (mat_of N M (flow_u N M r x)) (mat_of N M (flow_v N M r x)) A) as E.
  assert (Z : inner nt a (snd (h_getvrtdiv D r N M (mat_of N M (flow_u N M r x)) (mat_of N M (flow_v N M r x)) nt)) = 0).
  { pose proof (flow_eq res rs om nt0 g Hg D x P) as F. unfold sph, harmonics in F. cbn [sh_getuv] in F.
    unfold inner. apply Rsum_tab_zero. intros k Hk.
    pose proof (wind_vrtdiv N M D nt r HN HDN HDM Hr x (repeat (RtoC 0) L) k (proj1 P) (zeros_truncated D nt) Hk) as [_ W]. cbv zeta in W. rewrite F in W. cbn [fst snd] in W. rewrite W.
    rewrite (coef_zeros nt), lead_0. destruct (Nat.leb (degree nt k) D), (Nat.eqb (degree nt k) 0); rewrite cdot_0_r; ring. }
  rewrite Z in E. unfold sph, harmonics. cbn [sh_getgrad]. unfold h_getgrad, sample. cbn [fst snd].
  rewrite (qmean_ext N M _ (fun i j => / r * (sum_at h_east (map i_times a) (row_lat N i) (col_lon M j) * mget (mat_of N M (flow_u N M r x)) i j + sum_at h_north a (row_lat N i) (col_lon M j) * mget (mat_of N M (flow_v N M r x)) i j))).
  - rewrite qmean_scal. cbv beta in E. set (Q := qmean N M _) in E |- *. lra.
  - intros i j Hi Hj. rewrite !mget_mat_of by assumption. unfold Rdiv. fold a. ring.
Qed.
(** actual wind and a constant Coriolis parameter *)
Lemma act_mean o s F c : plain s -> o_wind o = WAct -> o_fcor_ref o = Some c -> o_scale_height o <> 0 -> orog_call T o s = Ok (FMat F) -> sphere_mean g F = 0.
Proof.
  intros S W C H0 E. pose proof S as [G P].
  destruct (orography (o_relief o) g) as [hh|x] eqn:EH; [|unfold orog_call, orography_gradient in E; rewrite G, EH in E; discriminate].
  destruct (orog_call_get T g HE o s hh G H0 EH) as [F' [E' [_ Q]]]. rewrite E in E'. injection E' as <-.
  change (qmean N M (mget F) = 0). destruct (uv_eq res rs om nt0 g Hg D HDN HDM s S) as [EU EV].
  rewrite (qmean_ext N M _ (fun i j => - c / o_scale_height o * o_fact o * (flow_u N M r (s_vorticity_spectral T s) i j * mget (fst (gradient T g hh)) i j + flow_v N M r (s_vorticity_spectral T s) i j * mget (snd (gradient T g hh)) i j))).
  - rewrite qmean_scal, no_mean_advection; [ring|]. exact (vo_plain res rs om nt0 g Hg D HDN HDM s S).
  - intros i j Hi Hj. rewrite Q by assumption. unfold forcing_f, forcing_u, forcing_v. rewrite W, C, EU, EV, !mget_mat_of by assumption. ring.
Qed.
(** zonal winds *)
Lemma zonal_mean_zero o (s : state K) F i : s_grid s = g -> o_wind o <> WAct -> o_scale_height o <> 0 -> orog_call T o s = Ok (FMat F) -> (i < N)%nat -> circle_mean g F i = 0.
Proof.
  intros G W H0 E Hi.
  destruct (orography (o_relief o) g) as [hh|x] eqn:EH; [|unfold orog_call, orography_gradient in E; rewrite G, EH in E; discriminate].
  destruct (orog_call_get T g HE o s hh G H0 EH) as [F' [E' [_ Q]]]. rewrite E in E'. injection E' as <-.
  unfold circle_mean. rewrite (tab_ext M _ (fun j => - forcing_f g o i / o_scale_height o * forcing_u T g o s i 0 * mget (fst (gradient T g hh)) i j)).
  - rewrite Rsum_tab_scal, circle_gradient by exact Hi. unfold Rdiv. ring.
  - intros j Hj. rewrite Q by assumption. unfold forcing_u, forcing_v. destruct (o_wind o); [contradiction| |]; ring.
Qed.
Lemma zonal_mean o (s : state K) F : s_grid s = g -> o_wind o <> WAct -> o_scale_height o <> 0 -> orog_call T o s = Ok (FMat F) -> sphere_mean g F = 0.
Proof.
  intros G W H0 E. unfold sphere_mean. apply Rsum_tab_zero. intros i Hi. fold (circle_mean g F i). rewrite (zonal_mean_zero o s F i G W H0 E Hi). ring.
Qed.

(** integrations with a forcing without mean *)
Lemma diffused_any (m : bmodel K) h x : plain_spec g D x -> plain_spec g D (apply_diffusion T m g h x).
Proof.
  assert (DP : forall y, plain_spec g D y -> plain_spec g D (solve_diffusion_spectral g y (m_coeff m) h (m_order m))).
  { intros y [[Y Z] W]. split; [split; [now apply diffusion_length|]|]; intros k Hk O; rewrite diffusion_coef by (assumption || (pose proof Hr; lra)).
    - rewrite (Z k Hk O). unfold Cdiv. apply Cmult_0_l.
    - specialize (W k Hk O). destruct (coef y k) as [p q]. cbn in W |- *. rewrite W. unfold Rdiv. ring. }
  intros P. unfold apply_diffusion. destruct (m_bg m) as [bg|]; [|now apply DP]. cbv zeta. pose proof (plain_analysis res rs om nt0 g Hg D HDN HDM bg) as B. set (b := to_spectral T g bg) in *.
  pose proof (plain_length _ _ _ P) as LP. pose proof (plain_length _ _ _ B) as LB.
  assert (S : plain_spec g D (ssub x b)).
  { apply (plain_lin g D 1 (-1) x b); auto; [rewrite ssub_length; congruence|]. intros k Hk. rewrite coef_ssub by congruence. rewrite Proofs_Harmonics.RtoC_m1. ring. }
  pose proof (DP _ S) as Q. pose proof (plain_length _ _ _ Q) as LQ.
  apply (plain_lin g D 1 1 _ b _ Q B); [rewrite sadd_length; congruence|]. intros k Hk. rewrite coef_sadd by congruence. ring.
Qed.
Lemma forced_tendency (m : bmodel K) f s F t : m_rhs m = Some f -> plain s -> f s = Ok (FMat F) -> pv_tendency_spectral T m s = Ok t ->
  plain_spec g D t /\ coef t 0 = RtoC (sphere_mean g F).
Proof.
  intros HM S EF E. pose proof S as [G P]. unfold pv_tendency_spectral in E. rewrite HM, EF in E. cbn [bind] in E. injection E as <-. rewrite G.
  pose proof (flux_plain res rs om nt0 g Hg D HDN HDM s S) as PF. pose proof (plain_analysis res rs om nt0 g Hg D HDN HDM F) as PA.
  pose proof (plain_length _ _ _ PF) as LF. pose proof (plain_length _ _ _ PA) as LA. pose proof (Proofs_Spectral.nspec_pos nt) as NP.
  assert (C : forall k, (k < L)%nat -> coef (sadd (sopp (s_pv_flux_spectral T s)) (to_spectral T g F)) k = Cplus (Cmult (RtoC (-1)) (coef (s_pv_flux_spectral T s) k)) (Cmult (RtoC 1) (coef (to_spectral T g F) k))).
  { intros k Hk. rewrite coef_sadd by (rewrite sopp_length; congruence). rewrite coef_sopp by congruence. rewrite Proofs_Harmonics.RtoC_m1. ring. }
  split; [apply (plain_lin g D (-1) 1 _ _ _ PF PA); [rewrite sadd_length; rewrite ?sopp_length; congruence|exact C]|].
  rewrite C by exact NP. rewrite (flux_mean T g HE s G), mean_analysis. ring.
Qed.
Lemma advance (m : bmodel K) h q y t : (1 <= m_order m)%nat -> plain_spec g D y -> plain_spec g D t ->
  plain_spec g D (apply_diffusion T m g h (sadd y (sscale q t))) /\ coef (apply_diffusion T m g h (sadd y (sscale q t))) 0 = Cplus (coef y 0) (Cmult (RtoC q) (coef t 0)).
Proof.
  intros HO Y X. pose proof (plain_length _ _ _ Y) as LY. pose proof (plain_length _ _ _ X) as LX. pose proof (Proofs_Spectral.nspec_pos nt) as NP.
  assert (LS : length (sadd y (sscale q t)) = L) by (rewrite sadd_length; rewrite ?sscale_length; congruence).
  assert (C : forall k, (k < L)%nat -> coef (sadd y (sscale q t)) k = Cplus (Cmult (RtoC 1) (coef y k)) (Cmult (RtoC q) (coef t k))).
  { intros k Hk. rewrite coef_sadd by (rewrite ?sscale_length; congruence). rewrite coef_sscale by congruence. ring. }
  split; [apply diffused_any; apply (plain_lin g D 1 q _ _ _ Y X LS C)|].
  rewrite (apply_diffusion_mean T g HE ltac:(pose proof Hr; lra) m h _ HO LS), C by exact NP. ring.
Qed.
Lemma forced_euler (m : bmodel K) f s dt h F e : m_rhs m = Some f -> (1 <= m_order m)%nat -> plain s -> f s = Ok (FMat F) -> to_seconds dt = Ok h -> euler T m s dt = Ok e ->
  plain e /\ coef (s_pvs e) 0 = Cplus (coef (s_pvs s) 0) (RtoC (h * sphere_mean g F)).
Proof.
  intros HM HO S EF Hh E. pose proof S as [G P]. unfold euler in E. rewrite Hh in E. cbn [bind] in E. destruct (pv_tendency_spectral T m s) as [t|x] eqn:ET; [|discriminate]. cbn [bind] in E.
  destruct (py_add (s_time s) dt) as [tm|x]; [|discriminate]. cbn [bind] in E. injection E as <-. destruct (forced_tendency m f s F t HM S EF ET) as [PT CT].
  rewrite G. destruct (advance m h h _ _ HO P PT) as [PA CA]. split; [split; [reflexivity|exact PA]|]. cbn [s_pvs]. rewrite CA, CT, RtoC_mult. reflexivity.
Qed.
Lemma forced_leapfrog (m : bmodel K) f a s nu F s' e : m_rhs m = Some f -> (1 <= m_order m)%nat -> plain a -> plain s -> f s = Ok (FMat F) -> leapfrog T m a s nu = Ok (s', e) -> exists h,
  plain s' /\ plain e /\ coef (s_pvs e) 0 = Cplus (coef (s_pvs a) 0) (RtoC (2 * h * sphere_mean g F))
  /\ coef (s_pvs s') 0 = Cplus (Cmult (RtoC (1 - 2 * nu)) (coef (s_pvs s) 0)) (Cmult (RtoC nu) (Cplus (coef (s_pvs a) 0) (coef (s_pvs e) 0))).
Proof.
  intros HM HO A S EF E. pose proof S as [G P]. pose proof A as [GA PA]. pose proof (plain_length _ _ _ P) as LP. pose proof (plain_length _ _ _ PA) as LA. pose proof (Proofs_Spectral.nspec_pos nt) as NP.
  unfold leapfrog in E. destruct (py_sub (s_time s) (s_time a)) as [dt|x]; [|discriminate]. cbn [bind] in E. destruct (to_seconds dt) as [h|x]; [|discriminate]. cbn [bind] in E.
  destruct (pv_tendency_spectral T m s) as [t|x] eqn:ET; [|discriminate]. cbn [bind] in E. destruct (py_add (s_time s) dt) as [tm|x]; [|discriminate]. cbn [bind] in E. injection E as <- <-.
  destruct (forced_tendency m f s F t HM S EF ET) as [PT CT]. rewrite G. destruct (advance m (2 * h) (2 * h) _ _ HO PA PT) as [PN CN]. exists h. cbn [s_pvs s_grid].
  set (n := apply_diffusion _ _ _ _ _) in *. pose proof (plain_length _ _ _ PN) as LN.
  assert (PB : plain_spec g D (sadd (s_pvs a) n)) by (apply (plain_lin g D 1 1 _ _ _ PA PN); [rewrite sadd_length; congruence|]; intros k Hk; rewrite coef_sadd by congruence; ring).
  pose proof (plain_length _ _ _ PB) as LB.
  assert (CQ : forall k, (k < L)%nat -> coef (sadd (sscale (1 - 2 * nu) (s_pvs s)) (sscale nu (sadd (s_pvs a) n))) k = Cplus (Cmult (RtoC (1 - 2 * nu)) (coef (s_pvs s) k)) (Cmult (RtoC nu) (coef (sadd (s_pvs a) n) k))).
  { intros k Hk. rewrite (coef_sadd (sscale (1 - 2 * nu) (s_pvs s))) by (rewrite ?sscale_length; congruence). rewrite !coef_sscale by congruence. reflexivity. }
  split; [split; [reflexivity|]|split; [split; [reflexivity|exact PN]|split]].
  - cbn [s_pvs]. apply (plain_lin g D (1 - 2 * nu) nu _ _ _ P PB); [rewrite sadd_length; rewrite ?sscale_length; congruence|exact CQ].
  - rewrite CN, CT, (RtoC_mult (2 * h)). reflexivity.
  - rewrite CQ by exact NP. rewrite (coef_sadd (s_pvs a)) by congruence. reflexivity.
Qed.
Lemma no_source (m : bmodel K) f init dt i s new : m_rhs m = Some f -> (1 <= m_order m)%nat -> (forall s x, plain s -> f s = Ok x -> exists F, x = FMat F /\ sphere_mean g F = 0) ->
  plain init -> steps T m init dt i = Ok (s, new) ->
  plain s /\ plain new /\ coef (s_pvs s) 0 = coef (s_pvs init) 0 /\ coef (s_pvs new) 0 = coef (s_pvs init) 0.
Proof.
  intros HM HO HF S0.
  assert (HV : forall s t, plain s -> pv_tendency_spectral T m s = Ok t -> exists F, f s = Ok (FMat F) /\ sphere_mean g F = 0).
  { intros b t Pb Et. unfold pv_tendency_spectral in Et. rewrite HM in Et. destruct (f b) as [x|x] eqn:Ef; [|discriminate]. destruct (HF b x Pb Ef) as [F [-> Z]]. now exists F. }
  revert s new. induction i as [|i IH]; intros s new E.
  - cbn [steps] in E. destruct (euler T m init dt) as [e|x] eqn:Ee; [|discriminate]. cbn [bind] in E. injection E as <- <-.
    pose proof Ee as Ee'. unfold euler in Ee'. destruct (to_seconds dt) as [h|x] eqn:Eh; [|discriminate]. cbn [bind] in Ee'. destruct (pv_tendency_spectral T m init) as [t|x] eqn:Et; [|discriminate].
    destruct (HV init t S0 Et) as [F [Ef Z]]. destruct (forced_euler m f init dt h F e HM HO S0 Ef Eh Ee) as [Pe Ce]. repeat split; try apply S0; try apply Pe. rewrite Ce, Z, Rmult_0_r. ring.
  - cbn [steps] in E. destruct (steps T m init dt i) as [[a b]|x] eqn:Es; [|discriminate]. cbn [bind fst snd] in E. destruct (IH a b eq_refl) as [Pa [Pb [Ca Cb]]].
    pose proof E as E'. unfold leapfrog in E'. destruct (py_sub (s_time b) (s_time a)) as [dd|x]; [|discriminate]. cbn [bind] in E'. destruct (to_seconds dd) as [h|x]; [|discriminate]. cbn [bind] in E'.
    destruct (pv_tendency_spectral T m b) as [t|x] eqn:Et; [|discriminate]. clear E'. destruct (HV b t Pb Et) as [F [Ef Z]].
    destruct (forced_leapfrog m f a b _ F s new HM HO Pa Pb Ef E) as [h' [Ps [Pn [Cn Cs]]]]. assert (QN : coef (s_pvs new) 0 = coef (s_pvs init) 0) by (rewrite Cn, Z, Rmult_0_r, Ca; ring).
    split; [exact Ps|]. split; [exact Pn|]. split; [|exact QN]. rewrite Cs, QN, Ca, Cb. destruct (coef (s_pvs init) 0). apply pairC; cbn; ring.
Qed.
End Means.
