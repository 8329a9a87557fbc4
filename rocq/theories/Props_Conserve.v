(** C134: energy, enstrophy and angular momentum of flows without forcing and diffusion. *)
From Coq Require Export String.
From Verif Require Import Base Model_Grid Model_Time Model_Spectral Model_State Model_Run.
From Verif Require Import Spec_Grid Spec_Spectral Spec_State Spec_Instance Spec_Run Spec_Symmetry Spec_Relax Spec_Waves Spec_Harmonics Spec_Conserve.
From Verif Require Import Proofs_Base Proofs_Trig Proofs_Grid Proofs_Spectral Proofs_Instance Proofs_State Proofs_Run Proofs_Step Proofs_Relax Proofs_WaveRec Proofs_Waves Proofs_HarmSum Proofs_Harmonics Proofs_HarmProd Proofs_HarmCons Proofs_Conserve.
From Verif Require Import Props_Symmetry Props_Waves Props_Harmonics.
From Coquelicot Require Import Coquelicot.
From Coq Require Import List Lia Lra.
Import ListNotations.
Open Scope R_scope.

Lemma plain_iff {K} res rs om nt0 g : mk_grid res rs om nt0 = Ok g -> forall D, (2 * D < g_nlat g)%nat -> (2 * D < g_nlon g)%nat -> forall s : state K,
  s_grid s = g -> length (s_pvs s) = nspec (g_ntrunc g) -> resolved (sph (harmonics D) g) (g_ntrunc g) (s_pvs s) -> plain_state g D s.
Proof.
  intros Hg D A B s G X R. split; [exact G|]. pose proof (proj1 (C133_resolved _ _ _ _ _ Hg D A B (s_pvs s) X) R) as Q. split; [split; [exact X|]|]; intros k Hk W; apply (Q k Hk); exact W.
Qed.
(** one step in terms of coefficients *)
Section Steps.
Context {K : numtype} (res rs om : R) (nt0 : option Z) (g : grid).
Hypothesis Hg : mk_grid res rs om nt0 = Ok g.
Variable D : nat.
Hypothesis HDN : (2 * D < g_nlat g)%nat.
Hypothesis HDM : (2 * D < g_nlon g)%nat.
Notation T := (harmonics D).
Notation nt := (g_ntrunc g).
Notation L := (nspec (g_ntrunc g)).
Context (M : bmodel K).
Hypothesis HM : m_rhs M = None.
Hypothesis HC : m_coeff M = 0.
Notation plain := (plain_state (K := K) g D).

Lemma HE : exact_on T g. Proof. apply (C133_transforms _ _ _ _ _ Hg D HDN HDM). Qed.
Lemma step_len (a b : list C) c : length a = L -> length b = L -> length (sadd a (sscale c b)) = L.
Proof. intros A B. rewrite sadd_length; [exact A|]. rewrite sscale_length. congruence. Qed.
Lemma step_coef (a b : list C) c k : length a = L -> length b = L -> (k < L)%nat -> coef (sadd a (sscale c (sopp b))) k = Cplus (Cmult (RtoC 1) (coef a k)) (Cmult (RtoC (- c)) (coef b k)).
Proof.
  intros A B Hk. rewrite coef_sadd by (rewrite ?sscale_length, ?sopp_length; congruence). rewrite coef_sscale, coef_sopp by (rewrite ?sopp_length; congruence). rewrite RtoC_opp. ring.
Qed.
Lemma vo_step (a s e : state K) c : plain a -> plain s -> plain e -> (forall k, (k < L)%nat -> coef (s_pvs e) k = Cplus (Cmult (RtoC 1) (coef (s_pvs a) k)) (Cmult (RtoC c) (coef (s_pv_flux_spectral T s) k))) ->
  forall k, (k < L)%nat -> coef (s_vorticity_spectral T e) k = Cplus (Cmult (RtoC 1) (coef (s_vorticity_spectral T a) k)) (Cmult (RtoC c) (coef (s_pv_flux_spectral T s) k)).
Proof.
  intros A S E H k Hk. rewrite (vo_coef res rs om nt0 g Hg D HDN HDM e k E Hk), (vo_coef res rs om nt0 g Hg D HDN HDM a k A Hk), H by exact Hk. ring.
Qed.
Lemma euler_step s dt h e : to_seconds dt = Ok h -> plain s -> euler T M s dt = Ok e ->
  plain e /\ forall k, (k < L)%nat -> coef (s_pvs e) k = Cplus (Cmult (RtoC 1) (coef (s_pvs s) k)) (Cmult (RtoC (- h)) (coef (s_pv_flux_spectral T s) k)).
Proof.
  intros Hh S E. pose proof S as [G P]. pose proof (flux_plain res rs om nt0 g Hg D HDN HDM s S) as F. pose proof (plain_length _ _ _ P) as LP. pose proof (plain_length _ _ _ F) as LF.
  unfold euler in E. rewrite Hh in E. cbn [bind] in E. unfold pv_tendency_spectral in E. rewrite HM in E. cbn [bind] in E. destruct (py_add (s_time s) dt) as [t|x]; [|discriminate]. cbn [bind] in E. injection E as <-.
  assert (LS : length (sopp (s_pv_flux_spectral T s)) = L) by now rewrite sopp_length.
  rewrite G, (calm T res rs om nt0 g Hg HE M HC) by now apply step_len. cbn [s_pvs].
  assert (C : forall k, (k < L)%nat -> coef (sadd (s_pvs s) (sscale h (sopp (s_pv_flux_spectral T s)))) k = Cplus (Cmult (RtoC 1) (coef (s_pvs s) k)) (Cmult (RtoC (- h)) (coef (s_pv_flux_spectral T s) k))) by (intros; now apply step_coef).
  split; [|exact C]. split; [reflexivity|]. cbn [s_pvs]. apply (plain_lin g D 1 (- h) _ _ _ P F); [now apply step_len|exact C].
Qed.
Lemma leapfrog_step a s nu s' e : plain a -> plain s -> leapfrog T M a s nu = Ok (s', e) -> exists h,
  plain e /\ plain s' /\ (forall k, (k < L)%nat -> coef (s_pvs e) k = Cplus (Cmult (RtoC 1) (coef (s_pvs a) k)) (Cmult (RtoC (- (2 * h))) (coef (s_pv_flux_spectral T s) k)))
  /\ forall k, (k < L)%nat -> coef (s_pvs s') k = Cplus (Cmult (RtoC (1 - 2 * nu)) (coef (s_pvs s) k)) (Cmult (RtoC nu) (Cplus (coef (s_pvs a) k) (coef (s_pvs e) k))).
Proof.
  intros A S E. pose proof S as [G P]. pose proof A as [GA PA]. pose proof (flux_plain res rs om nt0 g Hg D HDN HDM s S) as F.
  pose proof (plain_length _ _ _ P) as LP. pose proof (plain_length _ _ _ PA) as LA. pose proof (plain_length _ _ _ F) as LF.
  unfold leapfrog in E. destruct (py_sub (s_time s) (s_time a)) as [dt|x]; [|discriminate]. cbn [bind] in E. destruct (to_seconds dt) as [h|x]; [|discriminate]. cbn [bind] in E.
  unfold pv_tendency_spectral in E. rewrite HM in E. cbn [bind] in E. destruct (py_add (s_time s) dt) as [t|x]; [|discriminate]. cbn [bind] in E. injection E as <- <-.
  assert (LS : length (sopp (s_pv_flux_spectral T s)) = L) by now rewrite sopp_length.
  rewrite G, (calm T res rs om nt0 g Hg HE M HC) by now apply step_len. exists h. cbn [s_pvs].
  set (n := sadd (s_pvs a) (sscale (2 * h) (sopp (s_pv_flux_spectral T s)))). assert (LN : length n = L) by now apply step_len.
  assert (C : forall k, (k < L)%nat -> coef n k = Cplus (Cmult (RtoC 1) (coef (s_pvs a) k)) (Cmult (RtoC (- (2 * h))) (coef (s_pv_flux_spectral T s) k))) by (intros; now apply step_coef).
  assert (PN : plain_spec g D n) by (apply (plain_lin g D 1 (- (2 * h)) _ _ _ PA F); assumption).
  assert (LB : length (sadd (s_pvs a) n) = L) by (rewrite sadd_length; congruence).
  assert (PB : plain_spec g D (sadd (s_pvs a) n)) by (apply (plain_lin g D 1 1 _ _ _ PA PN); [exact LB|]; intros k Hk; rewrite coef_sadd by congruence; ring).
  assert (LQ : length (sadd (sscale (1 - 2 * nu) (s_pvs s)) (sscale nu (sadd (s_pvs a) n))) = L) by (apply step_len; rewrite ?sscale_length; assumption).
  assert (CQ : forall k, (k < L)%nat -> coef (sadd (sscale (1 - 2 * nu) (s_pvs s)) (sscale nu (sadd (s_pvs a) n))) k = Cplus (Cmult (RtoC (1 - 2 * nu)) (coef (s_pvs s) k)) (Cmult (RtoC nu) (coef (sadd (s_pvs a) n) k))).
  { intros k Hk. rewrite (coef_sadd (sscale (1 - 2 * nu) (s_pvs s))) by (rewrite ?sscale_length; congruence). rewrite !coef_sscale by congruence. reflexivity. }
  split; [split; [reflexivity|exact PN]|]. split; [split; [reflexivity|]|split; [exact C|]].
  - cbn [s_pvs]. apply (plain_lin g D (1 - 2 * nu) nu _ _ _ P PB LQ CQ).
  - intros k Hk. rewrite CQ by exact Hk. f_equal. f_equal. apply coef_sadd; congruence.
Qed.
End Steps.

(** The tendency of PV changes neither the energy nor (without aliasing) the enstrophy nor the angular momentum *)
Theorem C134_tendency : forall K res rs om nt g, mk_grid res rs om nt = Ok g -> forall D, (2 * D < g_nlat g)%nat -> (2 * D < g_nlon g)%nat ->
  forall (M : bmodel K) s t, m_rhs M = None -> s_grid s = g -> length (s_pvs s) = nspec (g_ntrunc g) -> resolved (sph (harmonics D) g) (g_ntrunc g) (s_pvs s) ->
  pv_tendency_spectral (harmonics D) M s = Ok t ->
  let w := sh_getuv (sph (harmonics D) g) t (repeat (RtoC 0) (nspec (g_ntrunc g))) in
  sphere_mean g (madd (mmul (s_u (harmonics D) s) (fst w)) (mmul (s_v (harmonics D) s) (snd w))) = 0
  /\ ((3 * D <= g_nlat g)%nat -> (3 * D < g_nlon g)%nat -> sphere_mean g (mmul (s_pv (harmonics D) s) (to_grid (harmonics D) g t)) = 0)
  /\ ((1 <= D)%nat -> (1 <= g_ntrunc g)%nat -> sphere_mean g (mat_of (g_nlat g) (g_nlon g) (fun i j => cos (nth i (g_phi g) 0) * mget (fst w) i j)) = 0).
Proof.
  intros K res rs om nt g Hg D A B M s t HM G X R E w. pose proof (plain_iff _ _ _ _ _ Hg D A B s G X R) as S.
  unfold pv_tendency_spectral in E. rewrite HM in E. injection E as <-. pose proof (flux_plain res rs om nt g Hg D A B s S) as F. pose proof (plain_length _ _ _ F) as LF.
  set (t := sopp (s_pv_flux_spectral (harmonics D) s)) in *. assert (LT : length t = nspec (g_ntrunc g)) by (unfold t; now rewrite sopp_length).
  assert (CT : forall k, (k < nspec (g_ntrunc g))%nat -> coef t k = Cplus (Cmult (RtoC (-1)) (coef (s_pv_flux_spectral (harmonics D) s) k)) (Cmult (RtoC 0) (coef (s_pv_flux_spectral (harmonics D) s) k))).
  { intros k Hk. unfold t. rewrite coef_sopp by congruence. rewrite Proofs_Harmonics.RtoC_m1. ring. }
  assert (P : plain_spec g D t) by (apply (plain_lin g D (-1) 0 _ _ _ F F LT CT)).
  pose proof (vo_plain res rs om nt g Hg D A B s S) as V. pose proof (HN _ _ _ _ _ Hg D A B) as Hn. pose proof (Hr _ _ _ _ _ Hg) as R0.
  unfold w. rewrite (flow_eq res rs om nt g Hg D t P). cbn [fst snd]. destruct (uv_eq res rs om nt g Hg D A B s S) as [-> ->]. split; [|split].
  - rewrite !mmul_of, madd_of, mean_of, (een_mean res rs om nt g Hg D A B _ _ V P).
    rewrite (een_lin g _ _ _ _ (-1) 0 CT), (flux_een res rs om nt g Hg D A B s S). ring.
  - intros A3 B3. rewrite (pv_eq g D s S). change (to_grid (harmonics D) g t) with (mat_of (g_nlat g) (g_nlon g) (fun i j => sum_at h_value t (row_lat (g_nlat g) i) (col_lon (g_nlon g) j))).
    rewrite mmul_of, mean_of. rewrite (parseval _ _ D (g_ntrunc g) Hn A B); [|apply S|apply P|apply P]. rewrite (inner_lin _ _ _ _ _ (-1) 0 CT), (flux_ens res rs om nt g Hg D A B s A3 B3 S). ring.
  - intros D1 N1. rewrite mean_of. rewrite (qmean_ext _ _ _ (fun i j => / g_rsphere g * (g_rsphere g * cos (row_lat (g_nlat g) i) * flow_u (g_nlat g) (g_nlon g) (g_rsphere g) t i j))).
    2:{ intros i j Hi Hj. rewrite mget_mat_of by assumption. replace (nth i (g_phi g) 0) with (row_lat (g_nlat g) i); [field; lra|].
        assert (Q : 0 < INR (g_nlat g - 1)) by (apply lt_0_INR; lia). unfold g_phi, g_lat, linspace_end. rewrite tab_map, tab_nth by exact Hi. unfold row_lat, deg2rad. field. lra. }
    rewrite qmean_scal, (momentum_coef _ _ D (g_ntrunc g) _ Hn A B R0 N1 D1 t (proj1 P) (proj2 P)).
    replace (Re (coef t 1)) with 0; [ring|]. assert (H1 : (1 < nspec (g_ntrunc g))%nat) by (destruct (g_ntrunc g); [lia|]; rewrite nspec_S; lia).
    rewrite CT by exact H1. pose proof (flux_mom res rs om nt g Hg D A B s D1 N1 S) as Z. destruct (coef (s_pv_flux_spectral (harmonics D) s) 1). cbn in *. rewrite Z. ring.
Qed.
Print Assumptions C134_tendency.

Lemma opposite_energy res rs om nt g : mk_grid res rs om nt = Ok g -> forall D, (2 * D < g_nlat g)%nat -> (2 * D < g_nlon g)%nat -> forall f, plain_spec g D f ->
  let w := sh_getuv (sph (harmonics D) g) (sopp f) (repeat (RtoC 0) (nspec (g_ntrunc g))) in sphere_mean g (energy_of (fst w) (snd w)) = / 2 * een g f f.
Proof.
  intros Hg D A B f F w. pose proof (plain_length _ _ _ F) as LF. unfold w. set (t := sopp f). assert (LT : length t = nspec (g_ntrunc g)) by (unfold t; now rewrite sopp_length).
  assert (CT : forall k, (k < nspec (g_ntrunc g))%nat -> coef t k = Cplus (Cmult (RtoC (-1)) (coef f k)) (Cmult (RtoC 0) (coef f k))).
  { intros k Hk. unfold t. rewrite coef_sopp by congruence. rewrite Proofs_Harmonics.RtoC_m1. ring. }
  assert (P : plain_spec g D t) by (apply (plain_lin g D (-1) 0 _ _ _ F F LT CT)).
  rewrite (flow_eq res rs om nt g Hg D t P). cbn [fst snd]. unfold energy_of. rewrite !mmul_of, madd_of, mscale_of, mean_of, qmean_scal, (een_mean res rs om nt g Hg D A B _ _ P P).
  rewrite (een_lin g _ _ _ _ (-1) 0 CT), (een_sym res rs om nt g Hg D A B _ _ P F), (een_lin g _ _ _ _ (-1) 0 CT). lra.
Qed.
(** Euler steps never take energy or enstrophy from the flow: they add the square of the
    step times those of the tendency *)
Theorem C134_euler : forall K res rs om nt g, mk_grid res rs om nt = Ok g -> forall D, (2 * D < g_nlat g)%nat -> (2 * D < g_nlon g)%nat ->
  forall (M : bmodel K) s dt h e t, m_rhs M = None -> m_coeff M = 0 -> s_grid s = g -> length (s_pvs s) = nspec (g_ntrunc g) -> resolved (sph (harmonics D) g) (g_ntrunc g) (s_pvs s) ->
  to_seconds dt = Ok h -> pv_tendency_spectral (harmonics D) M s = Ok t -> euler (harmonics D) M s dt = Ok e ->
  let w := sh_getuv (sph (harmonics D) g) t (repeat (RtoC 0) (nspec (g_ntrunc g))) in
  mean_energy (harmonics D) e = mean_energy (harmonics D) s + h ^ 2 * sphere_mean g (energy_of (fst w) (snd w))
  /\ 0 <= sphere_mean g (energy_of (fst w) (snd w))
  /\ ((3 * D <= g_nlat g)%nat -> (3 * D < g_nlon g)%nat ->
      mean_enstrophy (harmonics D) e = mean_enstrophy (harmonics D) s + h ^ 2 * sphere_mean g (enstrophy_of (to_grid (harmonics D) g t))
      /\ 0 <= sphere_mean g (enstrophy_of (to_grid (harmonics D) g t))).
Proof.
  intros K res rs om nt g Hg D A B M s dt h e t HM HC G X R Hh Et Ee w. pose proof (plain_iff _ _ _ _ _ Hg D A B s G X R) as S.
  destruct (euler_step res rs om nt g Hg D A B M HM HC s dt h e Hh S Ee) as [Pe Ce].
  unfold pv_tendency_spectral in Et. rewrite HM in Et. injection Et as <-. pose proof (flux_plain res rs om nt g Hg D A B s S) as F. pose proof (plain_length _ _ _ F) as LF.
  set (f := s_pv_flux_spectral (harmonics D) s) in *. set (t := sopp f) in *. assert (LT : length t = nspec (g_ntrunc g)) by (unfold t; now rewrite sopp_length).
  assert (CT : forall k, (k < nspec (g_ntrunc g))%nat -> coef t k = Cplus (Cmult (RtoC (-1)) (coef f k)) (Cmult (RtoC 0) (coef f k))).
  { intros k Hk. unfold t. rewrite coef_sopp by congruence. rewrite Proofs_Harmonics.RtoC_m1. ring. }
  assert (P : plain_spec g D t) by (apply (plain_lin g D (-1) 0 _ _ _ F F LT CT)).
  pose proof (vo_plain res rs om nt g Hg D A B s S) as V. pose proof (vo_plain res rs om nt g Hg D A B e Pe) as Ve. pose proof (HN _ _ _ _ _ Hg D A B) as Hn.
  pose proof (opposite_energy res rs om nt g Hg D A B f F) as QE. cbv zeta in QE. fold t w in QE.
  rewrite QE. split; [|split].
  - rewrite (energy_common g D e Pe), (energy_common g D s S), (common_energy_eq res rs om nt g Hg D A B e e Pe Pe), (common_energy_eq res rs om nt g Hg D A B s s S S).
    pose proof (vo_step res rs om nt g Hg D A B s s e (- h) S S Pe Ce) as C.
    set (ve := s_vorticity_spectral (harmonics D) e) in *. set (v := s_vorticity_spectral (harmonics D) s) in *.
    pose proof (flux_een res rs om nt g Hg D A B s S) as Z. fold f v in Z.
    rewrite (een_lin g ve v f ve 1 (- h) C). rewrite (een_sym res rs om nt g Hg D A B ve v Ve V), (een_lin g v v f ve 1 (- h) C), Z.
    rewrite (een_sym res rs om nt g Hg D A B ve f Ve F), (een_lin g f v f ve 1 (- h) C), (een_sym res rs om nt g Hg D A B f v F V), Z. ring.
  - pose proof (een_pos res rs om nt g Hg D A B f F). lra.
  - intros A3 B3. assert (QS : sphere_mean g (enstrophy_of (to_grid (harmonics D) g t)) = / 2 * inner (g_ntrunc g) f f).
    { change (to_grid (harmonics D) g t) with (mat_of (g_nlat g) (g_nlon g) (fun i j => sum_at h_value t (row_lat (g_nlat g) i) (col_lon (g_nlon g) j))). unfold enstrophy_of.
      set (mf := mat_of (g_nlat g) (g_nlon g) (fun i j => sum_at h_value t (row_lat (g_nlat g) i) (col_lon (g_nlon g) j))).
      replace (mmap (fun q => 1 / 2 * q ^ 2) mf) with (mat_of (g_nlat g) (g_nlon g) (fun i j => / 2 * (sum_at h_value t (row_lat (g_nlat g) i) (col_lon (g_nlon g) j) * sum_at h_value t (row_lat (g_nlat g) i) (col_lon (g_nlon g) j)))).
      - rewrite mean_of, qmean_scal. rewrite (parseval _ _ D (g_ntrunc g) Hn A B t t (proj1 P) (proj1 P) (proj2 P)).
        rewrite (inner_lin _ _ _ _ _ (-1) 0 CT), (inner_sym _ t f), (inner_lin _ _ _ _ _ (-1) 0 CT). lra.
      - apply (mat_ext (g_nlat g) (g_nlon g)); [apply shaped_mat_of|apply shaped_mmap, shaped_mat_of|]. intros i j Hi Hj. rewrite (mget_mmap (g_nlat g) (g_nlon g)) by (apply shaped_mat_of || assumption). unfold mf. rewrite !mget_mat_of by assumption. field. }
    rewrite QS. split; [|pose proof (inner_ge_0 _ _ D (g_ntrunc g) Hn A B f); lra].
    rewrite (enstrophy_common g D e Pe), (enstrophy_common g D s S), (common_enstrophy_eq res rs om nt g Hg D A B e e Pe Pe), (common_enstrophy_eq res rs om nt g Hg D A B s s S S).
    pose proof (flux_ens res rs om nt g Hg D A B s A3 B3 S) as Z. fold f in Z.
    rewrite (inner_lin _ (s_pvs e) _ _ _ 1 (- h) Ce). rewrite (inner_sym _ (s_pvs e) (s_pvs s)), (inner_lin _ (s_pvs s) _ _ _ 1 (- h) Ce), Z.
    rewrite (inner_sym _ (s_pvs e) f), (inner_lin _ f _ _ _ 1 (- h) Ce), (inner_sym _ f (s_pvs s)), Z. ring.
Qed.
Print Assumptions C134_euler.

(** Leapfrog steps: the new state has as much energy and enstrophy in common with the present one as the old state *)
Theorem C134_leapfrog : forall K res rs om nt g, mk_grid res rs om nt = Ok g -> forall D, (2 * D < g_nlat g)%nat -> (2 * D < g_nlon g)%nat ->
  forall (M : bmodel K) old now nu now' new, m_rhs M = None -> m_coeff M = 0 ->
  s_grid old = g -> length (s_pvs old) = nspec (g_ntrunc g) -> resolved (sph (harmonics D) g) (g_ntrunc g) (s_pvs old) ->
  s_grid now = g -> length (s_pvs now) = nspec (g_ntrunc g) -> resolved (sph (harmonics D) g) (g_ntrunc g) (s_pvs now) ->
  leapfrog (harmonics D) M old now nu = Ok (now', new) ->
  common_energy (harmonics D) now new = common_energy (harmonics D) now old
  /\ ((3 * D <= g_nlat g)%nat -> (3 * D < g_nlon g)%nat -> common_enstrophy (harmonics D) now new = common_enstrophy (harmonics D) now old).
Proof.
  intros K res rs om nt g Hg D A B M old now nu now' new HM HC G1 X1 R1 G2 X2 R2 E.
  pose proof (plain_iff _ _ _ _ _ Hg D A B old G1 X1 R1) as S1. pose proof (plain_iff _ _ _ _ _ Hg D A B now G2 X2 R2) as S2.
  destruct (leapfrog_step res rs om nt g Hg D A B M HM HC old now nu now' new S1 S2 E) as [h [S3 [_ [C _]]]].
  pose proof (vo_step res rs om nt g Hg D A B old now new _ S1 S2 S3 C) as V. split.
  - rewrite (common_energy_eq res rs om nt g Hg D A B now new S2 S3), (common_energy_eq res rs om nt g Hg D A B now old S2 S1), (een_lin g _ _ _ _ _ _ V), (flux_een res rs om nt g Hg D A B now S2). ring.
  - intros A3 B3. rewrite (common_enstrophy_eq res rs om nt g Hg D A B now new S2 S3), (common_enstrophy_eq res rs om nt g Hg D A B now old S2 S1), (inner_lin _ _ _ _ _ _ _ C), (flux_ens res rs om nt g Hg D A B now A3 B3 S2). ring.
Qed.
Print Assumptions C134_leapfrog.

(** Integrations: the angular momentum never changes, and every step has this property *)
Theorem C134_momentum : forall K res rs om nt g, mk_grid res rs om nt = Ok g -> forall D, (1 <= D)%nat -> (1 <= g_ntrunc g)%nat -> (2 * D < g_nlat g)%nat -> (2 * D < g_nlon g)%nat ->
  forall (M : bmodel K) init dt i s, m_rhs M = None -> m_coeff M = 0 ->
  s_grid init = g -> length (s_pvs init) = nspec (g_ntrunc g) -> resolved (sph (harmonics D) g) (g_ntrunc g) (s_pvs init) ->
  trajectory (harmonics D) M init dt i s -> momentum (harmonics D) s = momentum (harmonics D) init.
Proof.
  intros K res rs om nt g Hg D D1 N1 A B M init dt i s HM HC G X R [new E]. pose proof (plain_iff _ _ _ _ _ Hg D A B init G X R) as S0.
  assert (H1 : (1 < nspec (g_ntrunc g))%nat) by (destruct (g_ntrunc g); [lia|]; rewrite nspec_S; lia).
  assert (Q : plain_state g D s /\ plain_state g D new /\ Re (coef (s_pvs s) 1) = Re (coef (s_pvs init) 1) /\ Re (coef (s_pvs new) 1) = Re (coef (s_pvs init) 1)).
  { revert s new E. induction i as [|i IH]; intros s new E.
    - cbn [steps] in E. destruct (euler (harmonics D) M init dt) as [e|x] eqn:Ee; [|discriminate]. cbn [bind] in E. injection E as <- <-.
      assert (exists h, to_seconds dt = Ok h) as [h Hh] by (unfold euler in Ee; destruct (to_seconds dt) as [h|x]; [eauto|discriminate]).
      destruct (euler_step res rs om nt g Hg D A B M HM HC init dt h e Hh S0 Ee) as [Pe Ce]. split; [exact S0|]. split; [exact Pe|]. split; [reflexivity|].
      rewrite Ce by exact H1. pose proof (flux_mom res rs om nt g Hg D A B init D1 N1 S0) as Z. destruct (coef (s_pv_flux_spectral (harmonics D) init) 1), (coef (s_pvs init) 1). cbn in *. rewrite Z. ring.
    - cbn [steps] in E. destruct (steps (harmonics D) M init dt i) as [[a b]|x] eqn:Es; [|discriminate]. cbn [bind fst snd] in E. destruct (IH a b eq_refl) as [Pa [Pb [Ra Rb]]].
      destruct (leapfrog_step res rs om nt g Hg D A B M HM HC a b _ s new Pa Pb E) as [h [Pn [Ps [Cn Cs]]]]. split; [exact Ps|]. split; [exact Pn|].
      assert (RN : Re (coef (s_pvs new) 1) = Re (coef (s_pvs init) 1)).
      { rewrite Cn by exact H1. pose proof (flux_mom res rs om nt g Hg D A B b D1 N1 Pb) as Z. destruct (coef (s_pv_flux_spectral (harmonics D) b) 1), (coef (s_pvs a) 1). cbn in *. rewrite Z, <- Ra. ring. }
      split; [|exact RN]. rewrite Cs by exact H1. destruct (coef (s_pvs new) 1), (coef (s_pvs a) 1), (coef (s_pvs b) 1). cbn in *. rewrite RN, Ra, Rb. ring. }
  destruct Q as [Ps [_ [Q _]]]. rewrite (momentum_eq res rs om nt g Hg D A B s D1 N1 Ps), (momentum_eq res rs om nt g Hg D A B init D1 N1 S0). do 2 f_equal.
  rewrite (vo_coef res rs om nt g Hg D A B s 1 Ps H1), (vo_coef res rs om nt g Hg D A B init 1 S0 H1).
  destruct (coef (s_pvs s) 1), (coef (s_pvs init) 1), (coef (fcor2_spectral (harmonics D) g) 1). cbn in *. rewrite Q. ring.
Qed.
Print Assumptions C134_momentum.

(** Each step of an integration from a resolved state *)
Theorem C134_steps : forall K res rs om nt g, mk_grid res rs om nt = Ok g -> forall D, (2 * D < g_nlat g)%nat -> (2 * D < g_nlon g)%nat ->
  forall (M : bmodel K) init dt i a b a' b', m_rhs M = None -> m_coeff M = 0 ->
  s_grid init = g -> length (s_pvs init) = nspec (g_ntrunc g) -> resolved (sph (harmonics D) g) (g_ntrunc g) (s_pvs init) ->
  steps (harmonics D) M init dt i = Ok (a, b) -> steps (harmonics D) M init dt (S i) = Ok (a', b') ->
  common_energy (harmonics D) b b' = common_energy (harmonics D) b a
  /\ ((3 * D <= g_nlat g)%nat -> (3 * D < g_nlon g)%nat -> common_enstrophy (harmonics D) b b' = common_enstrophy (harmonics D) b a).
Proof.
  intros K res rs om nt g Hg D A B M init dt i a b a' b' HM HC G X R E E'. pose proof (plain_iff _ _ _ _ _ Hg D A B init G X R) as S0.
  assert (Q : plain_state g D a /\ plain_state g D b).
  { clear E'. revert a b E. induction i as [|i IH]; intros a b E.
    - cbn [steps] in E. destruct (euler (harmonics D) M init dt) as [e|x] eqn:Ee; [|discriminate]. cbn [bind] in E. injection E as <- <-.
      assert (exists h, to_seconds dt = Ok h) as [h Hh] by (unfold euler in Ee; destruct (to_seconds dt) as [h|x]; [eauto|discriminate]).
      destruct (euler_step res rs om nt g Hg D A B M HM HC init dt h e Hh S0 Ee) as [Pe _]. now split.
    - cbn [steps] in E. destruct (steps (harmonics D) M init dt i) as [[c d]|x] eqn:Es; [|discriminate]. cbn [bind fst snd] in E. destruct (IH c d eq_refl) as [Pc Pd].
      destruct (leapfrog_step res rs om nt g Hg D A B M HM HC c d _ a b Pc Pd E) as [h [Pn [Ps _]]]. now split. }
  destruct Q as [Pa Pb]. cbn [steps] in E'. change (match i with O => do e <- euler (harmonics D) M init dt; Ok (init, e) | S n => do p <- steps (harmonics D) M init dt n; leapfrog (harmonics D) M (fst p) (snd p) default_nu end) with (steps (harmonics D) M init dt i) in E'.
  rewrite E in E'. cbn [bind fst snd] in E'.
  assert (QQ : forall s : state K, plain_state g D s -> s_grid s = g /\ length (s_pvs s) = nspec (g_ntrunc g) /\ resolved (sph (harmonics D) g) (g_ntrunc g) (s_pvs s)).
  { intros s [Gs Ps]. split; [exact Gs|]. pose proof (plain_length _ _ _ Ps) as Ls. split; [exact Ls|]. apply (C133_resolved _ _ _ _ _ Hg D A B _ Ls). intros k Hk. split; intros W; [now apply Ps|now apply Ps]. }
  destruct (QQ a Pa) as [G1 [X1 R1]]. destruct (QQ b Pb) as [G2 [X2 R2]].
  exact (C134_leapfrog K res rs om nt g Hg D A B M a b default_nu a' b' HM HC G1 X1 R1 G2 X2 R2 E').
Qed.
Print Assumptions C134_steps.

Lemma Rsum_ge_term n f k : (k < n)%nat -> (forall i, (i < n)%nat -> 0 <= f i) -> f k <= Rsum (tab n f).
Proof.
  intros Hk H. assert (E : Rsum (tab n (fun i => if Nat.eqb i k then f k else 0)) = f k).
  { rewrite (Rsum_tab_one n _ k Hk); [now rewrite Nat.eqb_refl|]. intros j Hj N. now rewrite (proj2 (Nat.eqb_neq j k)). }
  rewrite <- E at 1. apply Rsum_tab_le. intros j Hj. destruct (Nat.eqb_spec j k) as [->|]; [lra|now apply H].
Qed.
(** The energy itself is not conserved: the first step strengthens every Rossby-Haurwitz wave that moves *)
Theorem C134_energy_refuted : forall K res rs om nt g, mk_grid res rs om nt = Ok g -> (1 <= g_ntrunc g)%nat ->
  forall D n, (1 <= n <= D)%nat -> (2 * D < g_nlat g)%nat -> (2 * D < g_nlon g)%nat -> (2 * n + D <= g_nlat g)%nat -> (2 * n + D < g_nlon g)%nat ->
  forall (M : bmodel K) s dt h e a z k, m_rhs M = None -> m_coeff M = 0 -> rossby_wave (harmonics D) g a n z s ->
  (k < nspec (g_ntrunc g))%nat -> coef z k <> RtoC 0 -> frequency om a n (order (g_ntrunc g) k) <> 0 ->
  to_seconds dt = Ok h -> h <> 0 -> euler (harmonics D) M s dt = Ok e -> mean_energy (harmonics D) s < mean_energy (harmonics D) e.
Proof.
  intros K res rs om nt g Hg N1 D n Hn A B H1 H2 M s dt h e a z k HM HC HW Hk Z W Hh H0 Ee.
  destruct (C133_transforms _ _ _ _ _ Hg D A B) as [HE [_ HF]]. pose proof (C133_products _ _ _ _ _ Hg N1 D n Hn A B H1 H2) as HP. pose proof HW as [G [[LZ DZ] [RZ EZ]]].
  assert (PZ : plain_spec g D z).
  { pose proof (proj1 (C133_resolved _ _ _ _ _ Hg D A B z LZ) RZ) as Q. split; [split; [exact LZ|]|]; intros l Hl V; apply (Q l Hl); exact V. }
  assert (S : plain_state g D s).
  { split; [exact G|]. rewrite EZ. pose proof (plain_analysis res rs om nt g Hg D A B (sine_lat (g_nlat g) (g_nlon g))) as PS. pose proof (plain_length _ _ _ PS) as LS. pose proof (rotating_length (harmonics D) g HE a) as LR.
    apply (plain_lin g D (2 * g_omega g + a) 1 _ _ _ PS PZ); [rewrite sadd_length; congruence|]. intros l Hl. rewrite coef_sadd by congruence. unfold rotating. rewrite coef_sscale by congruence. ring. }
  pose proof (flux_plain res rs om nt g Hg D A B s S) as F. assert (X : length (s_pvs s) = nspec (g_ntrunc g)) by apply (plain_length _ _ _ (proj2 S)).
  assert (RS : resolved (sph (harmonics D) g) (g_ntrunc g) (s_pvs s)) by (apply (C133_resolved _ _ _ _ _ Hg D A B _ X); intros l Hl; split; intros V; now apply S).
  assert (ET : pv_tendency_spectral (harmonics D) M s = Ok (sopp (s_pv_flux_spectral (harmonics D) s))) by (unfold pv_tendency_spectral; now rewrite HM).
  destruct (C134_euler K res rs om nt g Hg D A B M s dt h e _ HM HC G X RS Hh ET Ee) as [E _]. rewrite E.
  rewrite (opposite_energy res rs om nt g Hg D A B _ F). set (f := s_pv_flux_spectral (harmonics D) s) in *.
  assert (0 < een g f f).
  { rewrite (een_terms g D f f F). eapply Rlt_le_trans; [|apply (Rsum_ge_term _ _ k Hk); intros l Hl; apply (een_term res rs om nt g Hg D A B f l Hl)].
    assert (DK : degree (g_ntrunc g) k = n) by (destruct (Nat.eq_dec (degree (g_ntrunc g) k) n) as [|V]; [assumption|]; exfalso; apply Z; now apply DZ).
    cbv beta. rewrite DK. destruct (Nat.eqb_spec n 0) as [|V]; [lia|]. pose proof (order_degree (g_ntrunc g) k Hk) as [O _]. rewrite DK in O. pose proof (mean_square_pos _ _ O) as P1.
    pose proof (eig_pos (g_rsphere g) (Hr _ _ _ _ _ Hg) n ltac:(lia)) as P2. apply Rinv_0_lt_compat in P2.
    apply Rmult_lt_0_compat; [exact P2|]. apply Rmult_lt_0_compat; [exact P1|].
    assert (HO : g_fcor2 g = mscale (2 * g_omega g) (sine_lat (g_nlat g) (g_nlon g))) by (exact (fcor2_sine _ _ _ _ _ Hg)).
    assert (WS : wavy_state (harmonics D) g a n z s) by (split; [exact G|split; [split; [split; [exact LZ|exact DZ]|exact RZ]|exact EZ]]).
    destruct (wavy_flux (harmonics D) g HE a n HP HO z s k WS Hk) as [_ C]. fold f in C. rewrite C, (gf_om _ _ _ _ (mk_grid_facts _ _ _ _ _ Hg)).
    set (w := frequency om a n (order (g_ntrunc g) k)) in *. destruct (coef z k) as [p q]. unfold cdot, cx. cbn [Cmult Re Im fst snd].
    replace ((0 * p - - w * q) * (0 * p - - w * q) + (0 * q + - w * p) * (0 * q + - w * p)) with (w ^ 2 * (p ^ 2 + q ^ 2)) by ring.
    apply Rmult_lt_0_compat; [now apply pow2_gt_0|]. destruct (Req_dec p 0) as [->|NP]; [|pose proof (pow2_gt_0 p NP); pose proof (pow2_ge_0 q); lra].
    destruct (Req_dec q 0) as [->|NQ]; [exfalso; now apply Z|]. pose proof (pow2_gt_0 q NQ). lra. }
  assert (0 < h ^ 2) by now apply pow2_gt_0. nra.
Qed.
Print Assumptions C134_energy_refuted.

(** Example: a Rossby-Haurwitz wave of order 4 and degree 5 in a rotating flow on a grid of
    2.5 degrees, harmonics up to degree 24 (3*24 <= 73 latitudes).  An hour's Euler step
    strengthens it. *)
Example C134_example : exists g k, mk_grid (5 / 2) 6371200 (7292 / 100000000) None = Ok g /\ (3 * 24 <= g_nlat g)%nat /\ (3 * 24 < g_nlon g)%nat /\ (1 <= g_ntrunc g)%nat /\ (k < nspec (g_ntrunc g))%nat
  /\ let z := tab (nspec (g_ntrunc g)) (fun l => if Nat.eqb l k then RtoC (1 / 100000) else RtoC 0) in
  let s := mkState (K := numR) g (@VNum numR 0) (sadd (rotating (harmonics 24) g 0) z) in let M := mkModel (K := numR) None 1 0 None in
  rossby_wave (harmonics 24) g 0 5 z s /\ length (s_pvs s) = nspec (g_ntrunc g) /\ resolved (sph (harmonics 24) g) (g_ntrunc g) (s_pvs s)
  /\ exists e, euler (harmonics 24) M s (@VNum numR 3600) = Ok e /\ mean_energy (harmonics 24) s < mean_energy (harmonics 24) e.
Proof.
  destruct quarter_grid as [g [Hg [A [B [C O]]]]]. exists g, 287%nat. split; [exact Hg|]. rewrite A, B, C. assert (K : (287 < nspec 72)%nat) by (apply Nat.ltb_lt; vm_compute; reflexivity).
  assert (OK : order 72 287 = 4%nat) by (vm_compute; reflexivity). assert (DK : degree 72 287 = 5%nat) by (vm_compute; reflexivity).
  split; [lia|]. split; [lia|]. split; [lia|]. split; [exact K|]. intros z s M.
  assert (A24 : (2 * 24 < g_nlat g)%nat) by lia. assert (B24 : (2 * 24 < g_nlon g)%nat) by lia.
  assert (LZ : length z = nspec 72) by apply tab_length.
  assert (CZ : forall l, (l < nspec 72)%nat -> coef z l = if Nat.eqb l 287 then RtoC (1 / 100000) else RtoC 0) by (intros l Hl; unfold coef, z; now rewrite tab_nth).
  assert (ZD : of_degree (g_ntrunc g) 5 z).
  { rewrite C. split; [exact LZ|]. intros l Hl N. rewrite CZ by exact Hl. destruct (Nat.eqb_spec l 287) as [->|]; [contradiction|reflexivity]. }
  assert (ZR : resolved (sph (harmonics 24) g) (g_ntrunc g) z).
  { apply (C133_resolved _ _ _ _ _ Hg 24 A24 B24 z); rewrite C; [exact LZ|]. intros l Hl. rewrite CZ by exact Hl. destruct (Nat.eqb_spec l 287) as [->|]; [rewrite DK; split; [lia|reflexivity]|split; reflexivity]. }
  assert (HW : rossby_wave (harmonics 24) g 0 5 z s) by (split; [reflexivity|split; [exact ZD|split; [exact ZR|reflexivity]]]).
  pose proof (proj1 (C133_transforms _ _ _ _ _ Hg 24 A24 B24)) as HE. pose proof (rotating_length (harmonics 24) g HE 0) as LR.
  assert (LS : length (s_pvs s) = nspec (g_ntrunc g)) by (cbn [s s_pvs]; rewrite sadd_length; [exact LR|rewrite LR, LZ, C; reflexivity]).
  split; [exact HW|]. rewrite C in LS. split; [exact LS|]. split.
  - rewrite <- C in LS. pose proof (proj1 (C133_resolved _ _ _ _ _ Hg 24 A24 B24 z (proj1 ZD)) ZR) as Q.
    pose proof (plain_analysis (5 / 2) 6371200 (7292 / 100000000) None g Hg 24 A24 B24 (sine_lat (g_nlat g) (g_nlon g))) as PS. pose proof (plain_length _ _ _ PS) as LA.
    assert (P : plain_spec g 24 (s_pvs s)).
    { apply (plain_lin g 24 (2 * g_omega g + 0) 1 _ z _ PS); [split; [split; [apply ZD|]|]; intros l Hl V; apply (Q l Hl); exact V|exact LS|].
      intros l Hl. cbn [s s_pvs]. rewrite coef_sadd by (rewrite LR; rewrite ?LZ, ?C; (reflexivity || (rewrite <- C; exact Hl))). unfold rotating. rewrite coef_sscale by (rewrite LA; exact Hl). ring. }
    pose proof (proj2 (C133_resolved _ _ _ _ _ Hg 24 A24 B24 _ LS)) as R. rewrite C in *. apply R. intros l Hl. rewrite <- C in Hl. split; intros V; [apply P; [exact Hl|rewrite C; exact V]|apply P; [exact Hl|rewrite C; exact V]].
  - eexists. split; [reflexivity|].
    refine (C134_energy_refuted numR (5 / 2) 6371200 (7292 / 100000000) None g Hg _ 24 5 _ A24 B24 _ _ M s (@VNum numR 3600) 3600 _ 0 z 287 eq_refl eq_refl HW _ _ _ eq_refl _ eq_refl); try lia; try lra.
    + rewrite C. exact K.
    + rewrite CZ by exact K. cbn [Nat.eqb]. intros V. apply RtoC_inj in V. lra.
    + rewrite C, OK. unfold frequency. cbn [INR]. lra.
Qed.
