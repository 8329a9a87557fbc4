(** Means of products of fields made of harmonics: energy, enstrophy, momentum (C134). *)
From Coq Require Export String.
From Verif Require Import Base Model_Grid Model_Spectral Spec_Spectral Spec_Symmetry Spec_Waves Spec_Harmonics.
From Verif Require Import Proofs_Base Proofs_Trig Proofs_Spectral Proofs_Poly Proofs_Legendre Proofs_HarmQuad Proofs_HarmSum Proofs_Harmonics Proofs_HarmProd Proofs_HarmField.
From Coquelicot Require Import Coquelicot.
From Coq Require Import List Lia Lra.
Import ListNotations.
Open Scope R_scope.

(** mean over the sphere of a function of row and column *)
Definition qmean (N M : nat) (F : nat -> nat -> R) : R := Rsum (tab N (fun i => row_weight N i * (Rsum (tab M (fun j => F i j)) / INR M))).
Lemma qmean_ext N M F G : (forall i j, (i < N)%nat -> (j < M)%nat -> F i j = G i j) -> qmean N M F = qmean N M G.
Proof. intros H. unfold qmean. f_equal. apply tab_ext. intros i Hi. do 3 f_equal. apply tab_ext. intros j Hj. now apply H. Qed.
Lemma qmean_lin N M a b F G : qmean N M (fun i j => a * F i j + b * G i j) = a * qmean N M F + b * qmean N M G.
Proof.
  unfold qmean. rewrite <- !Rsum_tab_scal, <- Rsum_tab_plus. f_equal. apply tab_ext. intros i Hi. rewrite (Rsum_tab_plus M (fun j => a * F i j) (fun j => b * G i j)), (Rsum_tab_scal M a (fun j => F i j)), (Rsum_tab_scal M b (fun j => G i j)). unfold Rdiv. ring.
Qed.
Lemma qmean_zero N M F : (forall i j, (i < N)%nat -> (j < M)%nat -> F i j = 0) -> qmean N M F = 0.
Proof. intros H. unfold qmean. apply Rsum_tab_zero. intros i Hi. rewrite Rsum_tab_zero; [unfold Rdiv; ring|]. intros j Hj. now apply H. Qed.
Lemma qmean_scal N M a F : qmean N M (fun i j => a * F i j) = a * qmean N M F.
Proof. rewrite (qmean_ext N M _ (fun i j => a * F i j + 0 * F i j)) by (intros; ring). rewrite qmean_lin. ring. Qed.
Lemma qmean_sum N M L (F : nat -> nat -> nat -> R) : qmean N M (fun i j => Rsum (tab L (fun k => F k i j))) = Rsum (tab L (fun k => qmean N M (F k))).
Proof.
  induction L as [|L IH]; [apply qmean_zero; reflexivity|]. rewrite Rsum_tab_S, <- IH.
  rewrite (qmean_ext N M _ (fun i j => 1 * Rsum (tab L (fun k => F k i j)) + 1 * F L i j)) by (intros; rewrite Rsum_tab_S; ring). rewrite qmean_lin. ring.
Qed.
(** scalar product of complex numbers as vectors *)
Definition cdot (a b : C) : R := Re a * Re b + Im a * Im b.
Lemma cdot_lin a x y p q : cdot a (Cplus (Cmult (RtoC p) x) (Cmult (RtoC q) y)) = p * cdot a x + q * cdot a y.
Proof. unfold cdot. destruct a, x, y. cbn. ring. Qed.
Lemma cdot_sym a b : cdot a b = cdot b a.
Proof. unfold cdot. ring. Qed.
Lemma cdot_0_l b : cdot (RtoC 0) b = 0. Proof. unfold cdot. cbn. ring. Qed.
Lemma cdot_0_r b : cdot b (RtoC 0) = 0. Proof. rewrite cdot_sym. apply cdot_0_l. Qed.
Lemma cdot_turned b : cdot b (i_times b) = 0.
Proof. unfold cdot, i_times. cbn. ring. Qed.
Lemma cdot_i a b : cdot a (Cmult (0, 1) b) = - cdot (i_times a) b.
Proof. unfold cdot, i_times. destruct a, b. cbn. ring. Qed.

Section Means.
Variables N M D nt : nat.
Variable r : R.
Hypothesis HN : (2 <= N)%nat.
Hypothesis HDN : (2 * D < N)%nat.
Hypothesis HDM : (2 * D < M)%nat.
Hypothesis Hr : 0 < r.
Let L := nspec nt.
Let o := order nt.
Let d := degree nt.
Let field (h : part) (a : list C) (i j : nat) : R := sum_at h a (row_lat N i) (col_lon M j).
Let ms k := mean_square (o k) (d k).

(** the mean of a product with a sum of harmonics *)
Lemma adjoint h a F : length a = L -> qmean N M (fun i j => field h a i j * F i j) = Rsum (tab L (fun k => cdot (coef a k) (corr h N M (o k) (d k) F))).
Proof.
  intros La. rewrite (qmean_ext N M _ (fun i j => Rsum (tab L (fun k => h (o k) (d k) (row_lat N i) * swing (coef a k) (INR (o k) * col_lon M j) * F i j)))).
  2:{ intros i j Hi Hj. unfold field. rewrite (sum_at_eq nt) by exact La. rewrite <- Rsum_tab_scal_r. reflexivity. }
  rewrite (qmean_sum N M L (fun k i j => h (o k) (d k) (row_lat N i) * swing (coef a k) (INR (o k) * col_lon M j) * F i j)). f_equal. apply tab_ext. intros k Hk.
  unfold cdot, corr, qmean. cbn [Re Im fst snd]. rewrite <- Ropp_mult_distr_r, Ropp_mult_distr_l, <- !Rsum_tab_scal, <- Rsum_tab_plus. f_equal. apply tab_ext. intros i Hi.
  unfold swing. rewrite (tab_ext M _ (fun j => h (o k) (d k) (row_lat N i) * Re (coef a k) * (F i j * cos (INR (o k) * col_lon M j)) + - (h (o k) (d k) (row_lat N i) * Im (coef a k)) * (F i j * sin (INR (o k) * col_lon M j)))) by (intros; ring).
  rewrite Rsum_tab_plus, !Rsum_tab_scal. unfold Rdiv. ring.
Qed.
(** scalar product of coefficients that corresponds to the mean of the product *)
Definition inner (x y : list C) : R := Rsum (tab (nspec nt) (fun k => mean_square (order nt k) (degree nt k) * cdot (coef x k) (coef y k))).
Lemma inner_sym x y : inner x y = inner y x.
Proof. unfold inner. f_equal. apply tab_ext. intros k Hk. now rewrite cdot_sym. Qed.
Lemma inner_lin x y z w p q : (forall k, (k < L)%nat -> coef w k = Cplus (Cmult (RtoC p) (coef y k)) (Cmult (RtoC q) (coef z k))) -> inner x w = p * inner x y + q * inner x z.
Proof. intros H. unfold inner. rewrite <- !Rsum_tab_scal, <- Rsum_tab_plus. f_equal. apply tab_ext. intros k Hk. rewrite H, cdot_lin by exact Hk. ring. Qed.
Lemma inner_ge_0 x : 0 <= inner x x.
Proof.
  unfold inner. apply Rsum_nonneg, Forall_forall. intros v Hv. apply in_map_iff in Hv as [k [<- Hk]]. apply in_seq in Hk. assert (Hk' : (k < nspec nt)%nat) by lia. clear Hk. rename Hk' into Hk. pose proof (order_degree nt k Hk) as [O _]. pose proof (mean_square_pos _ _ O). apply Rmult_le_pos; [lra|]. unfold cdot. nra.
Qed.
Lemma inner_zero x y : (forall k, (k < L)%nat -> cdot (coef x k) (coef y k) = 0) -> inner x y = 0.
Proof. intros H. unfold inner. apply Rsum_tab_zero. intros k Hk. rewrite H by exact Hk. ring. Qed.
Lemma ms_pos k : (k < L)%nat -> 0 < ms k.
Proof. intros Hk. apply mean_square_pos. apply (order_degree nt k Hk). Qed.

(** mean of a * divergence = - mean of grad a . flux *)
Lemma div_adjoint a u v : truncated D nt a -> inner a (snd (h_getvrtdiv D r N M u v nt))
  = - / r * qmean N M (fun i j => field h_east (map i_times a) i j * mget u i j + field h_north a i j * mget v i j).
Proof.
  intros [La Z]. rewrite (qmean_ext N M _ (fun i j => 1 * (field h_east (map i_times a) i j * mget u i j) + 1 * (field h_north a i j * mget v i j))) by (intros; ring).
  rewrite qmean_lin, !Rmult_1_l, (adjoint h_east) by (rewrite map_length; exact La). rewrite (adjoint h_north) by exact La.
  rewrite <- Rsum_tab_plus, <- Rsum_tab_scal. unfold inner. f_equal. apply tab_ext. intros k Hk. fold o d. unfold h_getvrtdiv. cbn [snd]. rewrite coef_coefs by exact Hk. fold o d.
  destruct (Nat.leb_spec (d k) D) as [G|G].
  - rewrite !correlate_corr, coef_i_times. pose proof (ms_pos k Hk) as P. unfold ms in P. set (p := corr h_east N M (o k) (d k) (mget u)). set (q := corr h_north N M (o k) (d k) (mget v)).
    set (e := mean_square (o k) (d k)) in *. destruct (coef a k) as [x y], p as [p1 p2], q as [q1 q2]. unfold cdot, i_times. cbn. field. lra.
  - rewrite coef_i_times, (Z k Hk G), i_times_0, !cdot_0_l. ring.
Qed.
Lemma parseval x y : truncated D nt x -> truncated D nt y -> zonal_real nt y -> qmean N M (fun i j => field h_value x i j * field h_value y i j) = inner x y.
Proof.
  intros [X Z] Y R. rewrite (adjoint h_value) by exact X. unfold inner. f_equal. apply tab_ext. intros k Hk.
  destruct (le_lt_dec (d k) D) as [G|G]; [|rewrite (Z k Hk G), !cdot_0_l; ring].
  unfold field. rewrite (field_value N M D nt HN HDN HDM k (o k) (d k) Hk eq_refl eq_refl G y Y). unfold o. rewrite (lead_real nt y k R Hk). unfold cdot. destruct (coef x k), (coef y k). cbn. ring.
Qed.
(** mean of the scalar product of gradients *)
Lemma grad_inner a b : truncated D nt a -> truncated D nt b -> zonal_real nt b ->
  qmean N M (fun i j => field h_east (map i_times a) i j * field h_east (map i_times b) i j + field h_north a i j * field h_north b i j)
  = Rsum (tab L (fun k => INR (d k) * (INR (d k) + 1) * (ms k * cdot (coef a k) (coef b k)))).
Proof.
  intros A B R. pose proof (div_adjoint a (fst (h_getgrad r N M b)) (snd (h_getgrad r N M b)) A) as E.
  rewrite (qmean_ext N M _ (fun i j => / r * (field h_east (map i_times a) i j * field h_east (map i_times b) i j + field h_north a i j * field h_north b i j))) in E.
  2:{ intros i j Hi Hj. unfold h_getgrad, sample. cbn [fst snd]. rewrite !mget_mat_of by assumption. fold (field h_east (map i_times b) i j) (field h_north b i j). field. lra. }
  rewrite qmean_scal in E. set (Q := qmean N M _) in *. unfold inner in E.
  assert (E' : Q = - (r * r) * Rsum (tab (nspec nt) (fun k => mean_square (order nt k) (degree nt k) * cdot (coef a k) (coef (snd (h_getvrtdiv D r N M (fst (h_getgrad r N M b)) (snd (h_getgrad r N M b)) nt)) k)))) by (rewrite E; field; lra).
  rewrite E', <- Rsum_tab_scal. f_equal. apply tab_ext. intros k Hk. pose proof (grad_vrtdiv N M D nt r HN HDN HDM Hr b k B Hk) as [_ G]. cbv zeta in G. rewrite G. fold o d. unfold ms.
  destruct (Nat.leb_spec (d k) D) as [W|W].
  - unfold o at 2. rewrite (lead_real nt b k R Hk). unfold eigenvalue. destruct (coef a k), (coef b k). unfold cdot. cbn. field. lra.
  - destruct A as [_ Z]. rewrite (Z k Hk W), !cdot_0_l. ring.
Qed.
(** flows: u = -psi_phi/r, v = psi_lambda/r *)
Definition flow_u (x : list C) (i j : nat) : R := - / r * field h_north (potential r x) i j.
Definition flow_v (x : list C) (i j : nat) : R := / r * field h_east (map i_times (potential r x)) i j.
Lemma potential_real x : length x = L -> zonal_real nt x -> zonal_real nt (potential r x).
Proof.
  intros X R k Hk O. rewrite (coef_potential nt) by assumption. destruct (Nat.eqb _ 0); [reflexivity|]. specialize (R k Hk O). destruct (coef x k). cbn in *. rewrite R. ring.
Qed.
Lemma energy_inner x y : truncated D nt x -> truncated D nt y -> zonal_real nt y ->
  qmean N M (fun i j => flow_u x i j * flow_u y i j + flow_v x i j * flow_v y i j) = - inner (potential r x) y.
Proof.
  intros X Y R. pose proof (potential_truncated D nt r x X) as PX. pose proof (potential_truncated D nt r y Y) as PY. pose proof (potential_real y (proj1 Y) R) as PR.
  rewrite (qmean_ext N M _ (fun i j => / (r * r) * (field h_east (map i_times (potential r x)) i j * field h_east (map i_times (potential r y)) i j + field h_north (potential r x) i j * field h_north (potential r y) i j))) by (intros; unfold flow_u, flow_v; field; lra).
  rewrite qmean_scal, grad_inner by assumption. rewrite <- Rsum_tab_scal. unfold inner. replace (- Rsum (tab (nspec nt) (fun k => mean_square (order nt k) (degree nt k) * cdot (coef (potential r x) k) (coef y k))))
    with (-1 * Rsum (tab (nspec nt) (fun k => mean_square (order nt k) (degree nt k) * cdot (coef (potential r x) k) (coef y k)))) by ring.
  rewrite <- Rsum_tab_scal. f_equal. apply tab_ext. intros k Hk. unfold ms, o, d. rewrite !(coef_potential nt r) by (apply X || apply Y || exact Hk).
  destruct (Nat.eqb_spec (degree nt k) 0) as [E|E]; [rewrite !cdot_0_l; ring|]. assert (P : 0 < INR (degree nt k)) by (apply lt_0_INR; lia).
  unfold eigenvalue. destruct (coef x k), (coef y k). unfold cdot. revert P. generalize (INR (degree nt k)). intros n P. cbn. field. repeat split; lra.
Qed.
(** the flux of any field does no work on the flow *)
Lemma flux_energy F x : truncated D nt x -> inner (potential r x) (snd (h_getvrtdiv D r N M (mat_of N M (fun i j => F i j * flow_u x i j)) (mat_of N M (fun i j => F i j * flow_v x i j)) nt)) = 0.
Proof.
  intros X. rewrite div_adjoint by now apply potential_truncated. rewrite qmean_zero; [ring|]. intros i j Hi Hj. rewrite !mget_mat_of by assumption. unfold flow_u, flow_v. ring.
Qed.
(** the flux of a field by a flow without divergence does not change its mean square *)
Lemma flux_enstrophy q x : (3 * D <= N)%nat -> (3 * D < M)%nat -> truncated D nt q -> truncated D nt x ->
  inner q (snd (h_getvrtdiv D r N M (mat_of N M (fun i j => field h_value q i j * flow_u x i j)) (mat_of N M (fun i j => field h_value q i j * flow_v x i j)) nt)) = 0.
Proof.
  intros H3N H3M Q X. rewrite div_adjoint by exact Q. pose proof (potential_truncated D nt r x X) as [PX Z].
  rewrite (qmean_ext N M _ (fun i j => / r * (field h_east (map i_times (potential r x)) i j * (field h_value q i j * field h_north q i j))
     + - / r * (field h_north (potential r x) i j * (field h_value q i j * field h_east (map i_times q) i j)))).
  2:{ intros i j Hi Hj. rewrite !mget_mat_of by assumption. unfold flow_u, flow_v. ring. }
  rewrite qmean_lin, (adjoint h_east) by (rewrite map_length; exact PX). rewrite (adjoint h_north) by exact PX.
  set (c1 := fun k => corr h_east N M (o k) (d k) (fun i j => field h_value q i j * field h_north q i j)).
  set (c2 := fun k => corr h_north N M (o k) (d k) (fun i j => field h_value q i j * field h_east (map i_times q) i j)).
  assert (E : forall k, (k < L)%nat -> (d k <= D)%nat -> Cplus (Cmult (0, 1) (c1 k)) (c2 k) = RtoC 0).
  { intros k Hk G. apply (own_zero N M D nt D HN ltac:(lia) HDN HDM ltac:(lia) ltac:(lia) q 1 q (o k) (d k) Q (proj1 Q)); [intros; now rewrite Cmult_1_l|apply (order_degree nt k Hk)|exact G]. }
  assert (S : Rsum (tab L (fun k => cdot (coef (map i_times (potential r x)) k) (c1 k))) = Rsum (tab L (fun k => cdot (coef (potential r x) k) (c2 k)))).
  { f_equal. apply tab_ext. intros k Hk. rewrite coef_i_times. destruct (le_lt_dec (d k) D) as [G|G]; [|rewrite (Z k Hk G), i_times_0, !cdot_0_l; reflexivity].
    specialize (E k Hk G). assert (E' : c2 k = Copp (Cmult (0, 1) (c1 k))) by (apply (f_equal (fun c => Cminus c (Cmult (0, 1) (c1 k)))) in E; replace (c2 k) with (Cminus (Cplus (Cmult (0, 1) (c1 k)) (c2 k)) (Cmult (0, 1) (c1 k))) by ring; rewrite E; ring).
    rewrite E'. unfold cdot, i_times. destruct (coef (potential r x) k), (c1 k). cbn. ring. }
  change (- / r * (/ r * Rsum (tab L (fun k => cdot (coef (map i_times (potential r x)) k) (c1 k))) + - / r * Rsum (tab L (fun k => cdot (coef (potential r x) k) (c2 k)))) = 0).
  rewrite S. ring.
Qed.
(** momentum *)
Hypothesis Hnt : (1 <= nt)%nat.
Hypothesis HD1 : (1 <= D)%nat.
Lemma second : (1 < L)%nat /\ o 1%nat = 0%nat /\ d 1%nat = 1%nat.
Proof. unfold L, o, d. destruct nt as [|t]; [lia|]. rewrite nspec_S. split; [lia|]. split; reflexivity. Qed.
Lemma sine_trunc : truncated D nt (sine_coefs nt).
Proof. split; [apply sine_length|]. intros k Hk G. rewrite coef_sine by exact Hk. destruct (Nat.eqb_spec k 1) as [->|]; [|reflexivity]. destruct second as [_ [_ E]]. unfold d in E. lia. Qed.
Lemma sine_north i j : field h_north (sine_coefs nt) i j = cos (row_lat N i).
Proof.
  unfold field. destruct second as [S1 [O1 D1]]. rewrite (sum_at_eq nt) by apply sine_length. rewrite (Rsum_tab_one (nspec nt) _ 1 S1).
  - rewrite coef_sine by exact S1. fold o d. rewrite O1, D1, north_01. unfold swing. change (INR 0) with 0. rewrite Rmult_0_l, cos_0, sin_0. cbn. field.
  - intros k Hk K. rewrite coef_sine by exact Hk. destruct (Nat.eqb_spec k 1); [contradiction|]. rewrite swing_0. ring.
Qed.
Lemma sine_east i j : field h_east (map i_times (sine_coefs nt)) i j = 0.
Proof.
  apply (sum_at_zero nt); [rewrite map_length; apply sine_length|]. intros k Hk. rewrite coef_i_times, coef_sine by exact Hk. destruct (Nat.eqb_spec k 1) as [->|]; [left|right; apply i_times_0].
  destruct second as [_ [E _]]. unfold o in E. rewrite E. apply east_0.
Qed.
Lemma sine_inner (c : nat -> R) x : Rsum (tab L (fun k => c k * (ms k * cdot (coef (sine_coefs nt) k) (coef x k)))) = c 1%nat * (ms 1 * (/ 2 * Re (coef x 1))).
Proof.
  destruct second as [S1 _]. rewrite (Rsum_tab_one L _ 1 S1).
  - rewrite coef_sine by exact S1. unfold cdot. cbn. ring.
  - intros k Hk K. rewrite coef_sine by exact Hk. destruct (Nat.eqb_spec k 1); [contradiction|]. rewrite cdot_0_l. ring.
Qed.
Lemma momentum_coef x : truncated D nt x -> zonal_real nt x -> qmean N M (fun i j => r * cos (row_lat N i) * flow_u x i j) = r ^ 2 * (ms 1 / 2 * Re (coef x 1)).
Proof.
  intros X R. pose proof (potential_truncated D nt r x X) as PX. pose proof (potential_real x (proj1 X) R) as PR. destruct second as [S1 [O1 D1]].
  rewrite (qmean_ext N M _ (fun i j => -1 * (field h_east (map i_times (sine_coefs nt)) i j * field h_east (map i_times (potential r x)) i j + field h_north (sine_coefs nt) i j * field h_north (potential r x) i j))).
  2:{ intros i j Hi Hj. rewrite sine_north, sine_east. unfold flow_u. field. lra. }
  rewrite qmean_scal, grad_inner by (apply sine_trunc || assumption). rewrite (sine_inner (fun k => INR (d k) * (INR (d k) + 1))). rewrite D1.
  rewrite (coef_potential nt r x 1 (proj1 X) S1). fold d. rewrite D1. cbn [Nat.eqb]. unfold eigenvalue. destruct (coef x 1). cbn. field. lra.
Qed.
(** no field made of the flow's own harmonics is carried across the latitudes in the mean *)
Lemma flux_momentum q x : truncated D nt q -> zonal_real nt q -> truncated D nt x -> (forall k, (k < L)%nat -> o k <> 0%nat -> coef x k = coef q k) ->
  Re (coef (snd (h_getvrtdiv D r N M (mat_of N M (fun i j => field h_value q i j * flow_u x i j)) (mat_of N M (fun i j => field h_value q i j * flow_v x i j)) nt)) 1) = 0.
Proof.
  intros Q R X S. pose proof (potential_truncated D nt r x X) as [PX Z]. set (t := snd _). destruct second as [S1 [O1 D1]]. pose proof (ms_pos 1 S1) as P1.
  assert (E : inner (sine_coefs nt) t = 0).
  { unfold t. rewrite div_adjoint by apply sine_trunc. set (w := tab L (fun k => Cmult (RtoC (INR (o k))) (i_times (coef (potential r x) k)))).
    assert (LW : length w = L) by apply tab_len.
    assert (CW : forall k, (k < L)%nat -> coef w k = Cmult (RtoC (INR (o k))) (i_times (coef (potential r x) k))) by (intros k Hk; unfold w; now rewrite coef_tab).
    rewrite (qmean_ext N M _ (fun i j => / r * (field h_value w i j * field h_value q i j))).
    2:{ intros i j Hi Hj. rewrite !mget_mat_of by assumption. rewrite sine_north, sine_east. unfold flow_v.
        assert (V : field h_value w i j = cos (row_lat N i) * field h_east (map i_times (potential r x)) i j).
        { unfold field. rewrite !(sum_at_eq nt) by (rewrite ?map_length; assumption). rewrite <- Rsum_tab_scal. f_equal. apply tab_ext. intros k Hk. rewrite CW, coef_i_times by exact Hk.
          rewrite <- Rmult_assoc, east_value. fold o d. unfold swing. destruct (i_times (coef (potential r x) k)). cbn -[INR]. ring. }
        rewrite V. ring. }
    rewrite qmean_scal, parseval; [|split; [exact LW|]|exact Q|exact R].
    - rewrite inner_zero; [ring|]. intros k Hk. rewrite CW by exact Hk. rewrite (coef_potential nt r x k (proj1 X) Hk). destruct (Nat.eq_dec (o k) 0) as [E|E].
      + rewrite E. change (INR 0) with 0. rewrite Cmult_0_l. apply cdot_0_l.
      + rewrite (S k Hk E). destruct (Nat.eqb (degree nt k) 0); [rewrite i_times_0, Cmult_0_r; apply cdot_0_l|]. unfold cdot, i_times. destruct (coef q k). cbn. ring.
    - intros k Hk G. rewrite CW by exact Hk. rewrite (Z k Hk G), i_times_0. apply Cmult_0_r. }
  unfold inner in E. rewrite (tab_ext _ _ (fun k => 1 * (ms k * cdot (coef (sine_coefs nt) k) (coef t k)))) in E by (intros; unfold ms; fold o d; ring).
  rewrite (sine_inner (fun _ => 1)) in E. apply Rmult_eq_reg_l with (ms 1 / 2); [lra|lra].
Qed.
End Means.
