(** Energy, enstrophy and momentum of states (C134). *)
From Coq Require Export String.
From Verif Require Import Base Model_Grid Model_Time Model_Spectral Model_State Model_Run.
From Verif Require Import Spec_Grid Spec_Spectral Spec_State Spec_Run Spec_Symmetry Spec_Relax Spec_Waves Spec_Harmonics Spec_Conserve.
From Verif Require Import Proofs_Base Proofs_Trig Proofs_Grid Proofs_Spectral Proofs_Instance Proofs_State Proofs_Symmetry Proofs_Relax Proofs_Waves Proofs_HarmSum Proofs_Harmonics Proofs_HarmProd Proofs_HarmField Proofs_HarmCons.
From Verif Require Import Props_Symmetry Props_Harmonics.
From Coquelicot Require Import Coquelicot.
From Coq Require Import List Lia Lra.
Import ListNotations.
Open Scope R_scope.

Lemma mean_of g F : sphere_mean g (mat_of (g_nlat g) (g_nlon g) F) = qmean (g_nlat g) (g_nlon g) F.
Proof. unfold sphere_mean. exact (qmean_ext (g_nlat g) (g_nlon g) (mget (mat_of (g_nlat g) (g_nlon g) F)) F (fun i j Hi Hj => mget_mat_of (g_nlat g) (g_nlon g) F i j Hi Hj)). Qed.
Lemma mmul_of n m F G : mmul (mat_of n m F) (mat_of n m G) = mat_of n m (fun i j => F i j * G i j).
Proof.
  apply (mat_ext n m); [apply shaped_mmul; apply shaped_mat_of|apply shaped_mat_of|]. intros i j Hi Hj. rewrite (mget_mmul n m) by (apply shaped_mat_of || assumption). now rewrite !mget_mat_of.
Qed.
Lemma madd_of n m F G : madd (mat_of n m F) (mat_of n m G) = mat_of n m (fun i j => F i j + G i j).
Proof.
  apply (mat_ext n m); [apply shaped_madd; apply shaped_mat_of|apply shaped_mat_of|]. intros i j Hi Hj. rewrite (mget_madd n m) by (apply shaped_mat_of || assumption). now rewrite !mget_mat_of.
Qed.
Lemma mscale_of n m c F : mscale c (mat_of n m F) = mat_of n m (fun i j => c * F i j).
Proof.
  apply (mat_ext n m); [apply shaped_mscale; apply shaped_mat_of|apply shaped_mat_of|]. intros i j Hi Hj. rewrite (mget_mscale n m) by (apply shaped_mat_of || assumption). now rewrite !mget_mat_of.
Qed.

Section States.
Context {K : numtype} (res rs om : R) (nt0 : option Z) (g : grid).
Hypothesis Hg : mk_grid res rs om nt0 = Ok g.
Variable D : nat.
Hypothesis HDN : (2 * D < g_nlat g)%nat.
Hypothesis HDM : (2 * D < g_nlon g)%nat.
Notation T := (harmonics D).
Notation N := (g_nlat g).
Notation M := (g_nlon g).
Notation nt := (g_ntrunc g).
Notation L := (nspec (g_ntrunc g)).
Notation r := (g_rsphere g).
Definition plain_spec (x : list C) : Prop := truncated D nt x /\ zonal_real nt x.
Definition plain_state (s : state K) : Prop := s_grid s = g /\ plain_spec (s_pvs s).

Lemma HN : (2 <= N)%nat. Proof. destruct (mk_grid_counts _ _ _ _ _ Hg) as [_ [_ Q]]. lia. Qed.
Lemma Hr : 0 < r. Proof. pose proof (gf_rs_pos _ _ _ _ (mk_grid_facts _ _ _ _ _ Hg)) as R0. pose proof (gf_rs _ _ _ _ (mk_grid_facts _ _ _ _ _ Hg)) as RS. congruence || (rewrite RS; exact R0). Qed.
Lemma plain_lin p q x y z : plain_spec x -> plain_spec y -> length z = L -> (forall k, (k < L)%nat -> coef z k = Cplus (Cmult (RtoC p) (coef x k)) (Cmult (RtoC q) (coef y k))) -> plain_spec z.
Proof.
  intros [[X ZX] RX] [[Y ZY] RY] Z H. split; [split; [exact Z|]|].
  - intros k Hk G. rewrite H, (ZX k Hk G), (ZY k Hk G), !Cmult_0_r by exact Hk. apply Cplus_0_l.
  - intros k Hk O. rewrite H by exact Hk. specialize (RX k Hk O). specialize (RY k Hk O). destruct (coef x k), (coef y k). cbn in *. rewrite RX, RY. ring.
Qed.
Lemma plain_analysis f : plain_spec (to_spectral T g f).
Proof. split; [apply (coefs_truncated N M D nt HN HDN HDM)|]. apply coefs_real. intros n. rewrite correlate_corr. apply corr_0_real. Qed.
Lemma plain_divergence u v : plain_spec (snd (h_getvrtdiv D r N M u v nt)).
Proof.
  split; [apply (coefs_truncated N M D nt HN HDN HDM)|]. apply coefs_real. intros n. rewrite !correlate_corr. rewrite corr_part_0 by (intros; apply east_0). rewrite i_times_0.
  pose proof (corr_0_real N M h_north n (mget v)) as E. destruct (corr h_north N M 0 n (mget v)). cbn in *. rewrite E. ring.
Qed.
Lemma plain_length x : plain_spec x -> length x = L. Proof. intros [[X _] _]. exact X. Qed.
Lemma vo_coef s k : plain_state s -> (k < L)%nat -> coef (s_vorticity_spectral T s) k = Cplus (Cmult (RtoC 1) (coef (s_pvs s) k)) (Cmult (RtoC (-1)) (coef (fcor2_spectral T g) k)).
Proof.
  intros [G P] Hk. unfold s_vorticity_spectral. rewrite G. pose proof (plain_length _ P) as LP. pose proof (plain_length _ (plain_analysis (g_fcor2 g))) as LF. fold (fcor2_spectral T g) in LF.
  rewrite coef_ssub by (congruence || lia). rewrite Proofs_Harmonics.RtoC_m1. ring.
Qed.
Lemma vo_plain s : plain_state s -> plain_spec (s_vorticity_spectral T s).
Proof.
  intros S. pose proof S as [G P]. pose proof (plain_length _ P) as LP. pose proof (plain_analysis (g_fcor2 g)) as PF. fold (fcor2_spectral T g) in PF. pose proof (plain_length _ PF) as LF.
  apply (plain_lin 1 (-1) _ _ _ P PF); [unfold s_vorticity_spectral; rewrite G, ssub_length; congruence|]. intros k Hk. now apply vo_coef.
Qed.
Lemma flow_eq x : plain_spec x -> sh_getuv (sph T g) x (repeat (RtoC 0) L) = (mat_of N M (flow_u N M r x), mat_of N M (flow_v N M r x)).
Proof.
  intros P. pose proof (plain_length _ P) as X. unfold sph, harmonics. cbn [sh_getuv]. unfold h_getuv, sample.
  assert (Z : forall h phi lam, sum_at h (potential r (repeat (RtoC 0) L)) phi lam = 0 /\ sum_at h (map i_times (potential r (repeat (RtoC 0) L))) phi lam = 0).
  { intros h phi lam. split; apply (sum_at_zero nt); rewrite ?map_length, ?potential_length, ?repeat_length; try reflexivity; intros k Hk; right; rewrite ?coef_i_times, (potential_zeros nt) by exact Hk; [reflexivity|apply i_times_0]. }
  pose proof Hr as R0. f_equal; apply mat_of_ext; intros i j Hi Hj; rewrite ?(proj1 (Z _ _ _)), ?(proj2 (Z _ _ _)); unfold flow_u, flow_v; field; lra.
Qed.
Lemma uv_eq s : plain_state s -> s_u T s = mat_of N M (flow_u N M r (s_vorticity_spectral T s)) /\ s_v T s = mat_of N M (flow_v N M r (s_vorticity_spectral T s)).
Proof.
  intros S. pose proof S as [G P]. pose proof (vo_plain s S) as V. unfold s_u, s_v, s_invert_pv, wind. cbv zeta. cbn [as_spectral]. rewrite G.
  replace (szeros_like (s_vorticity_spectral T s)) with (repeat (RtoC 0) L).
  - rewrite (flow_eq _ V). now split.
  - rewrite <- (plain_length _ V). unfold szeros_like. generalize (s_vorticity_spectral T s). intros x. induction x as [|c l IH]; [reflexivity|]. cbn. now rewrite IH.
Qed.
Lemma pv_eq s : plain_state s -> s_pv T s = mat_of N M (fun i j => sum_at h_value (s_pvs s) (row_lat N i) (col_lon M j)).
Proof. intros [G P]. unfold s_pv. rewrite G. reflexivity. Qed.
Lemma flux_eq s : plain_state s -> s_pv_flux_spectral T s = snd (h_getvrtdiv D r N M
  (mat_of N M (fun i j => sum_at h_value (s_pvs s) (row_lat N i) (col_lon M j) * flow_u N M r (s_vorticity_spectral T s) i j))
  (mat_of N M (fun i j => sum_at h_value (s_pvs s) (row_lat N i) (col_lon M j) * flow_v N M r (s_vorticity_spectral T s) i j)) nt).
Proof.
  intros S. unfold s_pv_flux_spectral. rewrite (pv_eq s S). destruct (uv_eq s S) as [-> ->]. rewrite !mmul_of. destruct S as [G _]. unfold divergence_spectral, vorticity_divergence_spectral. rewrite G. reflexivity.
Qed.
Lemma flux_plain s : plain_state s -> plain_spec (s_pv_flux_spectral T s).
Proof. intros S. rewrite (flux_eq s S). apply plain_divergence. Qed.
(** twice the common energy and enstrophy as scalar products of coefficients *)
Definition een (x y : list C) : R := - inner nt (potential r x) y.
Lemma een_mean x y : plain_spec x -> plain_spec y -> qmean N M (fun i j => flow_u N M r x i j * flow_u N M r y i j + flow_v N M r x i j * flow_v N M r y i j) = een x y.
Proof. intros [X _] [Y RY]. apply (energy_inner N M D nt r HN HDN HDM Hr x y X Y RY). Qed.
Lemma een_sym x y : plain_spec x -> plain_spec y -> een x y = een y x.
Proof. intros X Y. rewrite <- !een_mean by assumption. apply qmean_ext. intros i j _ _. ring. Qed.
Lemma een_lin x y z w p q : (forall k, (k < L)%nat -> coef w k = Cplus (Cmult (RtoC p) (coef y k)) (Cmult (RtoC q) (coef z k))) -> een x w = p * een x y + q * een x z.
Proof. intros H. unfold een. rewrite (inner_lin nt (potential r x) y z w p q H). ring. Qed.
Lemma een_terms x y : plain_spec x -> een x y = Rsum (tab L (fun k => if Nat.eqb (degree nt k) 0 then 0 else / eigenvalue r (degree nt k) * (mean_square (order nt k) (degree nt k) * cdot (coef x k) (coef y k)))).
Proof.
  intros P. unfold een, inner. rewrite <- (Rmult_1_l (Rsum _)), Ropp_mult_distr_l, <- Rsum_tab_scal. f_equal. apply tab_ext. intros k Hk. rewrite (coef_potential nt r x k (plain_length _ P) Hk).
  destruct (Nat.eqb (degree nt k) 0); [rewrite cdot_0_l; ring|]. unfold cdot. destruct (coef x k), (coef y k). cbn -[Rinv]. ring.
Qed.
Lemma een_term x k : (k < L)%nat -> 0 <= (if Nat.eqb (degree nt k) 0 then 0 else / eigenvalue r (degree nt k) * (mean_square (order nt k) (degree nt k) * cdot (coef x k) (coef x k))).
Proof.
  intros Hk. destruct (Nat.eqb_spec (degree nt k) 0) as [|E]; [lra|]. pose proof (eig_pos r Hr (degree nt k) ltac:(lia)) as P. apply Rinv_0_lt_compat in P.
  pose proof (order_degree nt k Hk) as [O _]. pose proof (mean_square_pos _ _ O). apply Rmult_le_pos; [lra|]. apply Rmult_le_pos; [lra|]. unfold cdot. nra.
Qed.
Lemma een_pos x : plain_spec x -> 0 <= een x x.
Proof.
  intros P. rewrite (een_terms x x P). apply Rsum_nonneg, Forall_forall. intros v Hv. apply in_map_iff in Hv as [k [<- Hk]]. apply in_seq in Hk. apply een_term. lia.
Qed.
Lemma common_energy_eq s s' : plain_state s -> plain_state s' -> common_energy T s s' = / 2 * een (s_vorticity_spectral T s) (s_vorticity_spectral T s').
Proof.
  intros S S'. unfold common_energy. destruct (uv_eq s S) as [-> ->]. destruct (uv_eq s' S') as [-> ->]. pose proof S as [-> _].
  rewrite !mmul_of, madd_of, mscale_of, mean_of, qmean_scal, een_mean by now apply vo_plain. lra.
Qed.
Lemma common_enstrophy_eq s s' : plain_state s -> plain_state s' -> common_enstrophy T s s' = / 2 * inner nt (s_pvs s) (s_pvs s').
Proof.
  intros S S'. unfold common_enstrophy. rewrite (pv_eq s S), (pv_eq s' S'). pose proof S as [-> [P _]]. pose proof S' as [_ [P' R']].
  rewrite mmul_of, mscale_of, mean_of, qmean_scal. rewrite <- (parseval N M D nt HN HDN HDM _ _ P P' R'). lra.
Qed.
Lemma energy_common s : plain_state s -> mean_energy T s = common_energy T s s.
Proof. reflexivity. Qed.
Lemma enstrophy_common s : plain_state s -> mean_enstrophy T s = common_enstrophy T s s.
Proof.
  intros S. unfold mean_enstrophy, common_enstrophy, s_enstrophy, enstrophy_of. rewrite (pv_eq s S). pose proof S as [-> _]. f_equal. rewrite mmul_of, mscale_of.
  apply (mat_ext N M); [apply shaped_mmap; apply shaped_mat_of|apply shaped_mat_of|]. intros i j Hi Hj. rewrite (mget_mmap N M) by (apply shaped_mat_of || assumption). rewrite !mget_mat_of by assumption. field.
Qed.
(** the flux does not change them *)
Lemma flux_een s : plain_state s -> een (s_vorticity_spectral T s) (s_pv_flux_spectral T s) = 0.
Proof. intros S. rewrite (flux_eq s S). unfold een. rewrite flux_energy; [ring|apply Hr|apply (vo_plain s S)]. Qed.
Lemma flux_ens s : (3 * D <= N)%nat -> (3 * D < M)%nat -> plain_state s -> inner nt (s_pvs s) (s_pv_flux_spectral T s) = 0.
Proof. intros A B S. rewrite (flux_eq s S). apply (flux_enstrophy N M D nt r HN HDN HDM Hr); [exact A|exact B|apply S|apply (vo_plain s S)]. Qed.
Lemma flux_mom s : (1 <= D)%nat -> (1 <= nt)%nat -> plain_state s -> Re (coef (s_pv_flux_spectral T s) 1) = 0.
Proof.
  intros A B S. rewrite (flux_eq s S). apply (flux_momentum N M D nt r HN HDN HDM Hr B A); [apply S|apply S|apply (vo_plain s S)|]. intros k Hk O. rewrite (vo_coef s k S Hk).
  destruct (C133_transforms _ _ _ _ _ Hg D HDN HDM) as [HE _]. rewrite (fcor2_rotating T g HE (fcor2_sine _ _ _ _ _ Hg)). unfold to_spectral, sph, harmonics. cbn [sh_grdtospec].
  rewrite (analysis_sine N M D nt 0 HN ltac:(lia) HDN HDM ltac:(lia) ltac:(lia) B A). rewrite coef_sscale by (rewrite sine_length; exact Hk). rewrite coef_sine by exact Hk.
  destruct (Nat.eqb_spec k 1) as [->|]; [|ring]. exfalso. apply O. destruct nt as [|t]; [lia|]. reflexivity.
Qed.
Lemma momentum_eq s : (1 <= D)%nat -> (1 <= nt)%nat -> plain_state s -> momentum T s = r ^ 2 * (mean_square 0 1 / 2 * Re (coef (s_vorticity_spectral T s) 1)).
Proof.
  intros A B S. unfold momentum. destruct (uv_eq s S) as [-> _]. pose proof S as [-> _]. rewrite mean_of.
  destruct (vo_plain s S) as [V W]. pose proof (momentum_coef N M D nt r HN HDN HDM Hr B A _ V W) as E. cbv beta in E.
  replace (order nt 1) with 0%nat in E by (destruct nt as [|t]; [lia|reflexivity]). replace (degree nt 1) with 1%nat in E by (destruct nt as [|t]; [lia|reflexivity]). rewrite <- E.
  apply qmean_ext. intros i j Hi Hj. rewrite mget_mat_of by assumption. f_equal. f_equal. f_equal.
  pose proof HN. assert (P : 0 < INR (N - 1)) by (apply lt_0_INR; lia). unfold g_phi, g_lat, linspace_end. rewrite tab_map, tab_nth by exact Hi. unfold row_lat, deg2rad. field. lra.
Qed.
End States.
