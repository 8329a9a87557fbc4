(** The transforms of Spec_Harmonics meet the assumptions on every grid. *)
From Coq Require Export String.
From Verif Require Import Base Model_Grid Model_Spectral Spec_Spectral Spec_Calculus Spec_Symmetry Spec_Relax Spec_Harmonics.
From Verif Require Import Proofs_Base Proofs_Trig Proofs_Spectral Proofs_Instance Proofs_State Proofs_Symmetry Proofs_Poly Proofs_Legendre Proofs_HarmQuad Proofs_HarmSum.
From Coquelicot Require Import Coquelicot.
From Coq Require Import List Lia Lra.
Import ListNotations.
Open Scope R_scope.

Lemma RtoC_m1 : RtoC (-1) = Copp (RtoC 1).
Proof. unfold RtoC, Copp. cbn [fst snd]. apply pairC; ring. Qed.
Lemma swing_0 a : swing (RtoC 0) a = 0.
Proof. unfold swing. cbn. ring. Qed.
Lemma lead_0 m : lead m (RtoC 0) = RtoC 0.
Proof. unfold lead. now destruct (Nat.eqb m 0). Qed.
Lemma i_times_mult c : i_times c = Cmult (0, 1) c.
Proof. unfold i_times, Cmult. cbn [fst snd]. unfold Re, Im. apply pairC; ring. Qed.
Lemma i_times_0 : i_times (RtoC 0) = RtoC 0.
Proof. unfold i_times, RtoC. cbn. apply pairC; ring. Qed.
Lemma coef_i_times x k : coef (map i_times x) k = i_times (coef x k).
Proof. unfold coef. rewrite <- i_times_0 at 1. apply map_nth. Qed.
Lemma Ceq_dec (c d : C) : {c = d} + {c <> d}.
Proof. destruct c as [a b], d as [a' b']. destruct (Req_EM_T a a') as [->|N]; [|right; congruence]. destruct (Req_EM_T b b') as [->|N]; [now left|right; congruence]. Qed.
Lemma coef_tab n f k : (k < n)%nat -> coef (tab n f) k = f k.
Proof. intros H. unfold coef. now rewrite tab_nth. Qed.
Lemma coef_ext n x y : length x = n -> length y = n -> (forall k, (k < n)%nat -> coef x k = coef y k) -> x = y.
Proof. intros A B H. apply (nth_ext x y (RtoC 0) (RtoC 0)); [congruence|]. intros k Hk. apply H. lia. Qed.
Lemma coef_high x k : (length x <= k)%nat -> coef x k = RtoC 0.
Proof. intros H. unfold coef. now rewrite nth_overflow. Qed.
Lemma tab_len {A} n (f : nat -> A) : length (tab n f) = n.
Proof. unfold tab. now rewrite map_length, seq_length. Qed.

Section Transforms.
Variables N M D nt : nat.
Variable r : R.
Hypothesis HN : (2 <= N)%nat.
Hypothesis HDN : (2 * D < N)%nat.
Hypothesis HDM : (2 * D < M)%nat.
Hypothesis Hr : 0 < r.
Let L := nspec nt.
Let o := order nt.
Let d := degree nt.
Definition truncated (x : list C) : Prop := length x = L /\ forall k, (k < L)%nat -> (D < d k)%nat -> coef x k = RtoC 0.
Definition zonal_real (x : list C) : Prop := forall k, (k < L)%nat -> o k = 0%nat -> Im (coef x k) = 0.
Let field (h : part) (a : list C) (i j : nat) : R := sum_at h a (row_lat N i) (col_lon M j).

Lemma sum_at_eq h a phi lam : length a = L -> sum_at h a phi lam = Rsum (tab L (fun k => h (o k) (d k) phi * swing (coef a k) (INR (o k) * lam))).
Proof. intros H. unfold sum_at. rewrite H. unfold L. now rewrite trunc_nspec. Qed.
Lemma corr_field h' h a m n : truncated a -> (m <= D)%nat ->
  corr h' N M m n (field h a) = Csum (tab L (fun k => if Nat.eqb (o k) m then Cmult (RtoC (half m * dot h' N m n (h m (d k)))) (lead m (coef a k)) else RtoC 0)).
Proof.
  intros [La Z] Hm. rewrite (corr_ext h' N M m n _ (fun i j => Rsum (tab L (fun k => h (o k) (d k) (row_lat N i) * swing (coef a k) (INR (o k) * col_lon M j))))) by (intros; now apply sum_at_eq).
  rewrite (corr_sum h' N M m n L (fun k i j => h (o k) (d k) (row_lat N i) * swing (coef a k) (INR (o k) * col_lon M j))). apply Csum_ext. intros k Hk.
  destruct (le_lt_dec (d k) D) as [G|G].
  - pose proof (order_degree nt k Hk). fold o d in H. rewrite (corr_mode h' N M m n (h (o k) (d k)) (coef a k) (o k)) by lia. destruct (Nat.eqb_spec (o k) m) as [->|]; reflexivity.
  - rewrite (Z k Hk G), lead_0. rewrite (corr_ext h' N M m n _ (fun i j => h (o k) (d k) (row_lat N i) * swing (RtoC 0) (INR 0 * col_lon M j))) by (intros; rewrite !swing_0; reflexivity).
    rewrite (corr_mode h' N M m n (h (o k) (d k)) (RtoC 0) 0) by lia. rewrite lead_0, Cmult_0_r. destruct (Nat.eqb 0 m), (Nat.eqb (o k) m); try reflexivity; now rewrite Cmult_0_r.
Qed.
Lemma collect a (c : nat -> R) k' m : o k' = m -> truncated a -> (k' < L)%nat -> (forall k, (k < L)%nat -> o k = m -> (d k <= D)%nat -> d k <> d k' -> c k = 0) ->
  Csum (tab L (fun k => if Nat.eqb (o k) m then Cmult (RtoC (c k)) (lead m (coef a k)) else RtoC 0)) = Cmult (RtoC (c k')) (lead m (coef a k')).
Proof.
  intros <- [La Z] Hk H. rewrite (Csum_one L _ k'); [now rewrite Nat.eqb_refl|assumption|]. intros k Hl Ne. destruct (Nat.eqb_spec (o k) (o k')) as [E|]; [|reflexivity].
  destruct (le_lt_dec (d k) D) as [G|G]; [|rewrite (Z k Hl G), lead_0; apply Cmult_0_r].
  rewrite H; [apply Cmult_0_l|assumption|assumption|assumption|]. intros E'. apply Ne. now apply (index_inj nt).
Qed.
Lemma map_i_truncated a : truncated a -> truncated (map i_times a).
Proof. intros [La Z]. split; [now rewrite map_length|]. intros k Hk G. rewrite coef_i_times, (Z k Hk G). apply i_times_0. Qed.
Lemma east_0 l phi : h_east 0%nat l phi = 0.
Proof. unfold h_east. cbn. ring. Qed.
Lemma dot_east_0 g l : dot h_east N 0 l g = 0.
Proof. unfold dot. apply Rsum_tab_zero. intros i Hi. rewrite east_0. ring. Qed.
Lemma dot_0_east h l l' : dot h N 0 l (h_east 0%nat l') = 0.
Proof. unfold dot. apply Rsum_tab_zero. intros i Hi. rewrite east_0. ring. Qed.
Section One.
Variables k m n : nat.
Hypothesis Hk : (k < L)%nat.
Hypothesis Em : o k = m.
Hypothesis En : d k = n.
Hypothesis HD : (n <= D)%nat.
Lemma mn : (m <= n)%nat. Proof. rewrite <- Em, <- En. apply order_degree, Hk. Qed.
Lemma other l : (l < L)%nat -> o l = m -> (d l <= D)%nat -> (m <= d l /\ n + d l < N)%nat.
Proof. intros Hl El Dl. pose proof (order_degree nt l Hl) as [O _]. fold o d in O. lia. Qed.
Lemma field_value a : truncated a -> corr h_value N M m n (field h_value a) = Cmult (RtoC (mean_square m n)) (lead m (coef a k)).
Proof.
  intros T. pose proof mn as Hmn. rewrite (corr_field h_value h_value a m n T) by lia.
  rewrite (collect a (fun l => half m * dot h_value N m n (h_value m (d l))) k m Em T Hk).
  - rewrite En. now rewrite mean_square_eq, dot_value by lia.
  - intros l Hl El Dl Nl. destruct (other l Hl El Dl). rewrite dot_value, orthogonal by lia. ring.
Qed.
Lemma two_fields h1 g1 a1 h2 g2 a2 a (s1 s2 : C) (c : nat -> R) : truncated a1 -> truncated a2 -> truncated a ->
  (forall l, (l < L)%nat -> o l = m -> Cplus (Cmult s1 (Cmult (RtoC (half m * dot h1 N m n (g1 m (d l)))) (lead m (coef a1 l))))
      (Cmult s2 (Cmult (RtoC (half m * dot h2 N m n (g2 m (d l)))) (lead m (coef a2 l)))) = Cmult (RtoC (c l)) (lead m (coef a l))) ->
  (forall l, (l < L)%nat -> o l = m -> (d l <= D)%nat -> d l <> n -> c l = 0) ->
  Cplus (Cmult s1 (corr h1 N M m n (field g1 a1))) (Cmult s2 (corr h2 N M m n (field g2 a2))) = Cmult (RtoC (c k)) (lead m (coef a k)).
Proof.
  intros T1 T2 T H Z. pose proof mn as Hmn. rewrite !corr_field by (assumption || lia). rewrite <- !Csum_scal, <- Csum_plus.
  rewrite <- (collect a c k m Em T Hk) by (rewrite En; exact Z). apply Csum_ext. intros l Hl.
  destruct (Nat.eqb_spec (o l) m) as [E|]; [now apply H|]. rewrite !Cmult_0_r. apply Cplus_0_l.
Qed.
(** divergence and vorticity (times r) of gradients and of turned gradients *)
Ltac parts := intros l Hl El; rewrite coef_i_times; unfold lead; destruct (Nat.eqb_spec m 0) as [->|];
  [rewrite ?dot_east_0, ?dot_0_east|]; destruct (coef _ l) as [x y]; unfold Cmult, Cplus, RtoC, i_times; cbn; apply pairC; ring.
Lemma div_grad a : truncated a ->
  Cplus (Cmult (0, 1) (corr h_east N M m n (field h_east (map i_times a)))) (Cmult (RtoC (-1)) (corr h_north N M m n (field h_north a)))
  = Cmult (RtoC (- (INR n * (INR n + 1) * mean_square m n))) (lead m (coef a k)).
Proof.
  intros T. pose proof mn as Hmn.
  rewrite (two_fields h_east h_east _ h_north h_north a a (0, 1) (RtoC (-1)) (fun l => - (half m * (dot h_east N m n (h_east m (d l)) + dot h_north N m n (h_north m (d l))))) (map_i_truncated a T) T T).
  - rewrite En, dot_energy, mean_energy, mean_square_eq by lia. do 2 f_equal. ring.
  - parts.
  - intros l Hl El Dl Nl. destruct (other l Hl El Dl). rewrite dot_energy, mean_energy, orthogonal by lia. ring.
Qed.
Lemma vort_grad a : truncated a ->
  Cplus (Cmult (RtoC 1) (corr h_north N M m n (field h_east (map i_times a)))) (Cmult (0, 1) (corr h_east N M m n (field h_north a))) = RtoC 0.
Proof.
  intros T. pose proof mn as Hmn.
  assert (Z : forall l, (l < L)%nat -> o l = m -> (d l <= D)%nat -> dot h_east N m n (h_north m (d l)) + dot h_north N m n (h_east m (d l)) = 0).
  { intros l Hl El Dl. destruct (other l Hl El Dl). now rewrite dot_crossing, mean_crossing by lia. }
  rewrite (two_fields h_north h_east _ h_east h_north a (map i_times a) (RtoC 1) (0, 1) (fun l => half m * (dot h_east N m n (h_north m (d l)) + dot h_north N m n (h_east m (d l)))) (map_i_truncated a T) T (map_i_truncated a T)).
  - rewrite Z by (try assumption; lia). rewrite Rmult_0_r. apply Cmult_0_l.
  - parts.
  - intros l Hl El Dl Nl. rewrite Z by assumption. ring.
Qed.
End One.

(** coefficients *)
Lemma coefs_length c : length (coefs D nt c) = L.
Proof. apply tab_len. Qed.
Lemma coef_coefs c k : (k < L)%nat -> coef (coefs D nt c) k = if Nat.leb (d k) D then Cmult (RtoC (/ mean_square (o k) (d k))) (c (o k) (d k)) else RtoC 0.
Proof. intros H. unfold coefs. now rewrite coef_tab. Qed.
Lemma coefs_truncated c : truncated (coefs D nt c).
Proof. split; [apply coefs_length|]. intros k Hk G. rewrite coef_coefs by assumption. destruct (Nat.leb_spec (d k) D); [lia|reflexivity]. Qed.
Lemma coefs_real c : (forall n, Im (c 0%nat n) = 0) -> zonal_real (coefs D nt c).
Proof.
  intros H k Hk E. rewrite coef_coefs by assumption. rewrite E. destruct (Nat.leb (d k) D); [|reflexivity]. specialize (H (d k)).
  destruct (c 0%nat (d k)) as [x y]. cbn in *. rewrite H. ring.
Qed.
Lemma corr_0_real h n F : Im (corr h N M 0 n F) = 0.
Proof.
  unfold corr. cbn [Im snd]. rewrite Rsum_tab_zero; [ring|]. intros i Hi. rewrite Rsum_tab_zero; [unfold Rdiv; ring|]. intros j Hj.
  change (INR 0) with 0. rewrite Rmult_0_l, sin_0. ring.
Qed.
Lemma coefs_lin a b c e : coefs D nt (fun m n => Cplus (Cmult (RtoC a) (c m n)) (Cmult (RtoC b) (e m n))) = sadd (sscale a (coefs D nt c)) (sscale b (coefs D nt e)).
Proof.
  apply (coef_ext L); [apply coefs_length| |].
  - rewrite sadd_length; rewrite !sscale_length, !coefs_length; reflexivity.
  - intros k Hk. rewrite (coef_lin a b _ _ k L) by (apply coefs_length || assumption). rewrite !coef_coefs by assumption.
    destruct (Nat.leb (d k) D); [ring|]. rewrite !Cmult_0_r. symmetry. apply Cplus_0_l.
Qed.
Lemma coefs_ext c e : (forall m n, c m n = e m n) -> coefs D nt c = coefs D nt e.
Proof. intros H. unfold coefs. apply tab_ext. intros k Hk. now rewrite H. Qed.
Lemma correlate_lin h m n a b f g : shaped N M f -> shaped N M g ->
  correlate h N M m n (madd (mscale a f) (mscale b g)) = Cplus (Cmult (RtoC a) (correlate h N M m n f)) (Cmult (RtoC b) (correlate h N M m n g)).
Proof.
  intros F G. rewrite !correlate_corr, <- corr_lin. apply corr_ext. intros i j Hi Hj.
  rewrite (mget_madd N M) by (auto using shaped_mscale). now rewrite !(mget_mscale N M).
Qed.
Lemma mat_lin_NM a b (f1 f2 f : nat -> nat -> R) : (forall i j, f i j = a * f1 i j + b * f2 i j) ->
  mat_of N M f = madd (mscale a (mat_of N M f1)) (mscale b (mat_of N M f2)).
Proof.
  intros H. unfold madd, vadd. apply (mat_ext N M).
  - apply shaped_mat_of.
  - apply shaped_map2; apply shaped_mscale; apply shaped_mat_of.
  - intros i j Hi Hj. rewrite (mget_map2 N M) by (auto using shaped_mscale, shaped_mat_of).
    rewrite !(mget_mscale N M) by (auto using shaped_mat_of). rewrite !mget_mat_of by auto. apply H.
Qed.
(** fields *)
Lemma swing_lin a b x y t : swing (Cplus (Cmult (RtoC a) x) (Cmult (RtoC b) y)) t = a * swing x t + b * swing y t.
Proof. unfold swing. rewrite Re_lin, Im_lin. ring. Qed.
Lemma i_times_lin a b x y : i_times (Cplus (Cmult (RtoC a) x) (Cmult (RtoC b) y)) = Cplus (Cmult (RtoC a) (i_times x)) (Cmult (RtoC b) (i_times y)).
Proof. rewrite !i_times_mult. ring. Qed.
Lemma sum_at_lin h a b x y z phi lam : length x = L -> length y = L -> length z = L ->
  (forall k, (k < L)%nat -> coef z k = Cplus (Cmult (RtoC a) (coef x k)) (Cmult (RtoC b) (coef y k))) ->
  sum_at h z phi lam = a * sum_at h x phi lam + b * sum_at h y phi lam.
Proof.
  intros X Y Z H. rewrite !sum_at_eq by assumption. rewrite <- !Rsum_tab_scal, <- Rsum_tab_plus. f_equal. apply tab_ext. intros k Hk. rewrite H, swing_lin by assumption. ring.
Qed.
Lemma potential_length x : length (potential r x) = length x.
Proof. apply tab_len. Qed.
Lemma coef_potential x k : length x = L -> (k < L)%nat -> coef (potential r x) k = if Nat.eqb (d k) 0 then RtoC 0 else Cmult (RtoC (- / eigenvalue r (d k))) (coef x k).
Proof. intros X H. unfold potential. rewrite X, coef_tab by assumption. unfold L. now rewrite trunc_nspec. Qed.
Lemma potential_truncated x : truncated x -> truncated (potential r x).
Proof.
  intros [X Z]. split; [now rewrite potential_length|]. intros k Hk G. rewrite coef_potential by assumption. rewrite (Z k Hk G). destruct (Nat.eqb (d k) 0); [reflexivity|apply Cmult_0_r].
Qed.
Lemma potential_lin a b x y z k : length x = L -> length y = L -> length z = L -> (k < L)%nat ->
  coef z k = Cplus (Cmult (RtoC a) (coef x k)) (Cmult (RtoC b) (coef y k)) ->
  coef (potential r z) k = Cplus (Cmult (RtoC a) (coef (potential r x) k)) (Cmult (RtoC b) (coef (potential r y) k)).
Proof.
  intros X Y Z Hk H. rewrite !coef_potential by assumption. destruct (Nat.eqb (d k) 0); [rewrite !Cmult_0_r; symmetry; apply Cplus_0_l|]. rewrite H. ring.
Qed.
Lemma sum_at_zero h x phi lam : length x = L -> (forall k, (k < L)%nat -> h (o k) (d k) phi = 0 \/ coef x k = RtoC 0) -> sum_at h x phi lam = 0.
Proof.
  intros X H. rewrite sum_at_eq by assumption. apply Rsum_tab_zero. intros k Hk. destruct (H k Hk) as [-> | ->]; [ring|]. rewrite swing_0. ring.
Qed.
Lemma lead_real x k : zonal_real x -> (k < L)%nat -> lead (o k) (coef x k) = coef x k.
Proof.
  intros Z Hk. unfold lead. destruct (Nat.eqb_spec (o k) 0) as [E|]; [|reflexivity]. specialize (Z k Hk E). destruct (coef x k) as [a b]. cbn in *. now rewrite Z.
Qed.
Lemma analysis_synthesis x k : truncated x -> (k < L)%nat ->
  coef (h_analysis D N M (h_synthesis N M x) nt) k = if Nat.leb (d k) D then lead (o k) (coef x k) else RtoC 0.
Proof.
  intros T Hk. unfold h_analysis. rewrite coef_coefs by assumption. destruct (Nat.leb_spec (d k) D) as [G|G]; [|reflexivity].
  unfold h_synthesis, sample. rewrite correlate_mat_of. pose proof (field_value k (o k) (d k) Hk eq_refl eq_refl G x T) as FV. unfold field in FV. rewrite FV.
  pose proof (mean_square_pos (o k) (d k) (proj1 (order_degree nt k Hk))). rewrite Cmult_assoc, <- RtoC_mult, Rinv_l by lra. apply Cmult_1_l.
Qed.
Lemma resolved_iff x : length x = L -> (h_analysis D N M (h_synthesis N M x) nt = x <-> truncated x /\ zonal_real x).
Proof.
  intros X. split.
  - intros E. rewrite <- E. split; [apply coefs_truncated|]. apply coefs_real. intros n. rewrite correlate_corr. apply corr_0_real.
  - intros [T Z]. apply (coef_ext L); [apply coefs_length|exact X|]. intros k Hk. rewrite analysis_synthesis by assumption.
    destruct (Nat.leb_spec (d k) D) as [G|G]; [now apply lead_real|]. symmetry. now apply T.
Qed.
Lemma eig_pos n : (0 < n)%nat -> 0 < eigenvalue r n.
Proof. intros H. unfold eigenvalue. apply Rdiv_lt_0_compat; [|nra]. assert (0 < INR n) by now apply lt_0_INR. nra. Qed.
Lemma wind_fields h z e k : truncated z -> truncated e -> (k < L)%nat ->
  correlate h N M (o k) (d k) (fst (h_getuv r N M z e))
  = Cplus (Cmult (RtoC (/ r)) (corr h N M (o k) (d k) (field h_east (map i_times (potential r e))))) (Cmult (RtoC (- / r)) (corr h N M (o k) (d k) (field h_north (potential r z))))
  /\ correlate h N M (o k) (d k) (snd (h_getuv r N M z e))
  = Cplus (Cmult (RtoC (/ r)) (corr h N M (o k) (d k) (field h_north (potential r e)))) (Cmult (RtoC (/ r)) (corr h N M (o k) (d k) (field h_east (map i_times (potential r z))))).
Proof.
  intros Tz Te Hk. unfold h_getuv, sample. cbn [fst snd]. rewrite !correlate_mat_of, <- !corr_lin. split; apply corr_ext; intros i j Hi Hj; unfold field; field; lra.
Qed.
Lemma wind_vrtdiv z e k : truncated z -> truncated e -> (k < L)%nat ->
  let w := h_getuv r N M z e in
  coef (fst (h_getvrtdiv D r N M (fst w) (snd w) nt)) k = (if Nat.leb (d k) D then if Nat.eqb (d k) 0 then RtoC 0 else lead (o k) (coef z k) else RtoC 0)
  /\ coef (snd (h_getvrtdiv D r N M (fst w) (snd w) nt)) k = (if Nat.leb (d k) D then if Nat.eqb (d k) 0 then RtoC 0 else lead (o k) (coef e k) else RtoC 0).
Proof.
  intros Tz Te Hk w. unfold h_getvrtdiv. cbn [fst snd]. rewrite !coef_coefs by assumption. destruct (Nat.leb_spec (d k) D) as [G|G]; [|split; reflexivity].
  pose proof (potential_truncated z Tz) as Pz. pose proof (potential_truncated e Te) as Pe.
  destruct (wind_fields h_north z e k Tz Te Hk) as [NU NV]. destruct (wind_fields h_east z e k Tz Te Hk) as [EU EV]. fold w in NU, NV, EU, EV. rewrite NU, NV, EU, EV.
  pose proof (div_grad k (o k) (d k) Hk eq_refl eq_refl G _ Pz) as DZ. pose proof (div_grad k (o k) (d k) Hk eq_refl eq_refl G _ Pe) as DE.
  pose proof (vort_grad k (o k) (d k) Hk eq_refl eq_refl G _ Pz) as VZ. pose proof (vort_grad k (o k) (d k) Hk eq_refl eq_refl G _ Pe) as VE.
  pose proof (mean_square_pos (o k) (d k) (proj1 (order_degree nt k Hk))) as MS.
  set (a1 := corr h_north N M (o k) (d k) (field h_east (map i_times (potential r e)))) in *.
  set (a2 := corr h_north N M (o k) (d k) (field h_north (potential r z))) in *.
  set (a3 := corr h_east N M (o k) (d k) (field h_north (potential r e))) in *.
  set (a4 := corr h_east N M (o k) (d k) (field h_east (map i_times (potential r z)))) in *.
  set (a5 := corr h_east N M (o k) (d k) (field h_east (map i_times (potential r e)))) in *.
  set (a6 := corr h_east N M (o k) (d k) (field h_north (potential r z))) in *.
  set (a7 := corr h_north N M (o k) (d k) (field h_north (potential r e))) in *.
  set (a8 := corr h_north N M (o k) (d k) (field h_east (map i_times (potential r z)))) in *.
  assert (F : forall x, length x = L -> (RtoC (/ mean_square (o k) (d k)) * (RtoC (/ r) * (RtoC (/ r) * (RtoC (- (INR (d k) * (INR (d k) + 1) * mean_square (o k) (d k))) * lead (o k) (coef (potential r x) k)))))%C
     = if Nat.eqb (d k) 0 then RtoC 0 else lead (o k) (coef x k)).
  { intros x X. rewrite coef_potential by assumption. destruct (Nat.eqb_spec (d k) 0) as [E|E]; [rewrite lead_0, !Cmult_0_r; reflexivity|].
    assert (0 < INR (d k)) by (apply lt_0_INR; lia). unfold eigenvalue, lead. destruct (coef x k) as [p q].
    destruct (Nat.eqb (o k) 0); unfold Cmult, RtoC, Re; cbn [fst snd]; apply pairC; field; nra. }
  split.
  - rewrite <- (F z) by apply Tz. rewrite <- DZ. rewrite !i_times_mult.
    transitivity (RtoC (/ mean_square (o k) (d k)) * (RtoC (/ r) * (RtoC (/ r) * ((RtoC 1 * a1 + (0, 1) * a3) + ((0, 1) * a4 + RtoC (-1) * a2)))))%C.
    + do 2 f_equal. rewrite (RtoC_opp (/ r)), RtoC_m1. ring.
    + rewrite VE. rewrite Cplus_0_l. reflexivity.
  - rewrite <- (F e) by apply Te. rewrite <- DE. rewrite !i_times_mult.
    transitivity (RtoC (/ mean_square (o k) (d k)) * (RtoC (/ r) * (RtoC (/ r) * (((0, 1) * a5 + RtoC (-1) * a7) + RtoC (-1) * (RtoC 1 * a8 + (0, 1) * a6)))))%C.
    + do 2 f_equal. unfold Cminus. rewrite (RtoC_opp (/ r)), RtoC_m1. ring.
    + rewrite VZ, Cmult_0_r, Cplus_0_r. reflexivity.
Qed.
Lemma grad_vrtdiv x k : truncated x -> (k < L)%nat ->
  let w := h_getgrad r N M x in
  coef (fst (h_getvrtdiv D r N M (fst w) (snd w) nt)) k = RtoC 0
  /\ coef (snd (h_getvrtdiv D r N M (fst w) (snd w) nt)) k = (if Nat.leb (d k) D then Cmult (RtoC (- eigenvalue r (d k))) (lead (o k) (coef x k)) else RtoC 0).
Proof.
  intros T Hk w. unfold h_getvrtdiv. cbn [fst snd]. rewrite !coef_coefs by assumption. destruct (Nat.leb_spec (d k) D) as [G|G]; [|split; reflexivity].
  assert (U : forall h, correlate h N M (o k) (d k) (fst w) = Cmult (RtoC (/ r)) (corr h N M (o k) (d k) (field h_east (map i_times x)))
     /\ correlate h N M (o k) (d k) (snd w) = Cmult (RtoC (/ r)) (corr h N M (o k) (d k) (field h_north x))).
  { intros h. unfold w, h_getgrad, sample. cbn [fst snd]. rewrite !correlate_mat_of. split.
    - rewrite <- (Cplus_0_r (Cmult _ _)). rewrite <- (Cmult_0_l (corr h N M (o k) (d k) (field h_east (map i_times x)))). rewrite <- corr_lin. apply corr_ext. intros i j _ _. unfold field. field. lra.
    - rewrite <- (Cplus_0_r (Cmult _ _)). rewrite <- (Cmult_0_l (corr h N M (o k) (d k) (field h_north x))). rewrite <- corr_lin. apply corr_ext. intros i j _ _. unfold field. field. lra. }
  destruct (U h_north) as [-> ->]. destruct (U h_east) as [-> ->].
  pose proof (div_grad k (o k) (d k) Hk eq_refl eq_refl G _ T) as DX. pose proof (vort_grad k (o k) (d k) Hk eq_refl eq_refl G _ T) as VX.
  pose proof (mean_square_pos (o k) (d k) (proj1 (order_degree nt k Hk))) as MS.
  set (a1 := corr h_north N M (o k) (d k) (field h_east (map i_times x))) in *. set (a2 := corr h_north N M (o k) (d k) (field h_north x)) in *.
  set (a3 := corr h_east N M (o k) (d k) (field h_east (map i_times x))) in *. set (a4 := corr h_east N M (o k) (d k) (field h_north x)) in *.
  rewrite !i_times_mult. split.
  - transitivity (RtoC (/ mean_square (o k) (d k)) * (RtoC (/ r) * (RtoC (/ r) * (RtoC 1 * a1 + (0, 1) * a4))))%C; [do 2 f_equal; ring|]. rewrite VX, !Cmult_0_r. reflexivity.
  - transitivity (RtoC (/ mean_square (o k) (d k)) * (RtoC (/ r) * (RtoC (/ r) * ((0, 1) * a3 + RtoC (-1) * a2))))%C; [do 2 f_equal; unfold Cminus; rewrite RtoC_m1; ring|].
    rewrite DX. destruct (lead (o k) (coef x k)) as [p q]. unfold eigenvalue, Cmult, RtoC. cbn [fst snd]. apply pairC; field; lra.
Qed.
(** the constants *)
Lemma nspec_pos : (0 < L)%nat.
Proof. unfold L. induction nt as [|t IH]; [cbn; lia|]. rewrite nspec_S. lia. Qed.
Lemma degree_first : d 0%nat = 0%nat /\ o 0%nat = 0%nat.
Proof. split; [reflexivity|]. unfold o. apply order_0. Qed.
Lemma degree_zero k : (k < L)%nat -> d k = 0%nat -> k = 0%nat.
Proof.
  intros Hk E. pose proof (order_degree nt k Hk). destruct degree_first as [D0 O0].
  apply (index_inj nt); [assumption|apply nspec_pos| |]; fold o; fold d; unfold o, d in *; lia.
Qed.
Lemma coef_const c k : coef (RtoC c :: repeat (RtoC 0) (L - 1)) k = if Nat.eqb k 0 then RtoC c else RtoC 0.
Proof. destruct k as [|k]; [reflexivity|]. cbn. unfold coef. cbn. apply nth_repeat. Qed.
Lemma const_length c : length (RtoC c :: repeat (RtoC 0) (L - 1)) = L.
Proof. pose proof nspec_pos as P. revert P. generalize L. intros q P. cbn [length]. rewrite repeat_length. lia. Qed.
Lemma coef_zeros k : coef (repeat (RtoC 0) L) k = RtoC 0.
Proof. apply nth_repeat. Qed.
Lemma const_truncated c : truncated (RtoC c :: repeat (RtoC 0) (L - 1)).
Proof. split; [apply const_length|]. intros k Hk G. rewrite coef_const. destruct (Nat.eqb_spec k 0) as [->|]; [|reflexivity]. destruct degree_first as [E _]. fold d in G. lia. Qed.
Lemma const_real c : zonal_real (RtoC c :: repeat (RtoC 0) (L - 1)).
Proof. intros k Hk E. rewrite coef_const. now destruct (Nat.eqb k 0). Qed.
Lemma zeros_truncated : truncated (repeat (RtoC 0) L).
Proof. split; [apply repeat_length|]. intros k Hk G. apply coef_zeros. Qed.
Lemma zeros_real : zonal_real (repeat (RtoC 0) L).
Proof. intros k Hk E. rewrite coef_zeros. reflexivity. Qed.
Lemma potential_const c k : (k < L)%nat -> coef (potential r (RtoC c :: repeat (RtoC 0) (L - 1))) k = RtoC 0.
Proof.
  intros Hk. rewrite coef_potential by (apply const_length || assumption). destruct (Nat.eqb_spec (d k) 0) as [E|E]; [reflexivity|].
  rewrite coef_const. destruct (Nat.eqb_spec k 0) as [->|]; [|apply Cmult_0_r]. destruct degree_first. contradiction.
Qed.
Lemma potential_zeros k : (k < L)%nat -> coef (potential r (repeat (RtoC 0) L)) k = RtoC 0.
Proof.
  intros Hk. rewrite coef_potential by (apply repeat_length || assumption). rewrite coef_zeros. destruct (Nat.eqb (d k) 0); [reflexivity|apply Cmult_0_r].
Qed.
Lemma rodrigues_00 z : rodrigues 0 0 z = 1.
Proof. reflexivity. Qed.
Lemma north_00 phi : h_north 0%nat 0%nat phi = 0.
Proof. unfold h_north. rewrite (rodrigues_high 0 (0 + 1)) by lia. change (INR 0) with 0. ring. Qed.
Lemma corr_part_0 h m n F : (forall phi, h m n phi = 0) -> corr h N M m n F = RtoC 0.
Proof. intros H. unfold corr, RtoC. apply pairC; [|rewrite <- Ropp_0; f_equal]; apply Rsum_tab_zero; intros i Hi; rewrite H; ring. Qed.
Lemma resolved_eq x : length x = L -> (resolved (harmonics D N M r) nt x <-> truncated x /\ zonal_real x).
Proof. apply resolved_iff. Qed.
Lemma still_wind z e : length z = L -> length e = L -> (forall k, (k < L)%nat -> coef (potential r z) k = RtoC 0) -> (forall k, (k < L)%nat -> coef (potential r e) k = RtoC 0) ->
  h_getuv r N M z e = (mat_of N M (fun _ _ => 0), mat_of N M (fun _ _ => 0)).
Proof.
  intros Lz Le Z E. unfold h_getuv, sample.
  assert (Q : forall h x phi lam, length x = L -> (forall k, (k < L)%nat -> coef (potential r x) k = RtoC 0) -> sum_at h (potential r x) phi lam = 0).
  { intros h x phi lam X H. apply sum_at_zero; [now rewrite potential_length|]. auto. }
  assert (Q' : forall h x phi lam, length x = L -> (forall k, (k < L)%nat -> coef (potential r x) k = RtoC 0) -> sum_at h (map i_times (potential r x)) phi lam = 0).
  { intros h x phi lam X H. apply sum_at_zero; [now rewrite map_length, potential_length|]. intros k Hk. right. rewrite coef_i_times, H by assumption. apply i_times_0. }
  f_equal; apply mat_of_ext; intros i j Hi Hj; rewrite !Q, !Q' by assumption; unfold Rdiv; ring.
Qed.
Lemma sum_at_sadd h a b x y phi lam : length x = L -> length y = L ->
  sum_at h (sadd (sscale a x) (sscale b y)) phi lam = a * sum_at h x phi lam + b * sum_at h y phi lam.
Proof.
  intros X Y. apply sum_at_lin; try assumption.
  - rewrite sadd_length; rewrite !sscale_length; congruence.
  - intros k Hk. now apply (coef_lin a b x y k L).
Qed.
Lemma lin_length a b x y : length x = L -> length y = L -> length (sadd (sscale a x) (sscale b y)) = L.
Proof. intros X Y. rewrite sadd_length; rewrite !sscale_length; congruence. Qed.
Lemma sum_at_potential_lin h a b x y phi lam : length x = L -> length y = L ->
  sum_at h (potential r (sadd (sscale a x) (sscale b y))) phi lam = a * sum_at h (potential r x) phi lam + b * sum_at h (potential r y) phi lam.
Proof.
  intros X Y. pose proof (lin_length a b x y X Y). apply sum_at_lin; try (now rewrite potential_length).
  intros k Hk. apply potential_lin; try assumption. now apply (coef_lin a b x y k L).
Qed.
Lemma sum_at_i_lin h a b x y z phi lam : length x = L -> length y = L -> length z = L ->
  (forall k, (k < L)%nat -> coef z k = Cplus (Cmult (RtoC a) (coef x k)) (Cmult (RtoC b) (coef y k))) ->
  sum_at h (map i_times z) phi lam = a * sum_at h (map i_times x) phi lam + b * sum_at h (map i_times y) phi lam.
Proof.
  intros X Y Z H. apply sum_at_lin; try (now rewrite map_length). intros k Hk. rewrite !coef_i_times, H by assumption. apply i_times_lin.
Qed.
Lemma sum_at_i_potential_lin h a b x y phi lam : length x = L -> length y = L ->
  sum_at h (map i_times (potential r (sadd (sscale a x) (sscale b y)))) phi lam = a * sum_at h (map i_times (potential r x)) phi lam + b * sum_at h (map i_times (potential r y)) phi lam.
Proof.
  intros X Y. pose proof (lin_length a b x y X Y). apply sum_at_i_lin; try (now rewrite potential_length).
  intros k Hk. apply potential_lin; try assumption. now apply (coef_lin a b x y k L).
Qed.
Lemma coef_first_zero c : c 0%nat 0%nat = RtoC 0 -> coef (coefs D nt c) 0 = RtoC 0.
Proof.
  intros H. rewrite coef_coefs by apply nspec_pos. destruct degree_first as [-> ->]. rewrite H. destruct (Nat.leb 0 D); [apply Cmult_0_r|reflexivity].
Qed.
Lemma first_or_leads z k : truncated z -> zonal_real z -> coef z 0 = RtoC 0 -> (k < L)%nat ->
  (if Nat.leb (d k) D then if Nat.eqb (d k) 0 then RtoC 0 else lead (o k) (coef z k) else RtoC 0) = coef z k.
Proof.
  intros T Z Z0 Hk. destruct (Nat.leb_spec (d k) D) as [G|G]; [|symmetry; now apply T].
  destruct (Nat.eqb_spec (d k) 0) as [E|E]; [|now apply lead_real]. apply degree_zero in E; [|assumption]. now rewrite E.
Qed.
Lemma helmholtz z e : truncated z -> zonal_real z -> coef z 0 = RtoC 0 -> truncated e -> zonal_real e -> coef e 0 = RtoC 0 ->
  let w := h_getuv r N M z e in h_getvrtdiv D r N M (fst w) (snd w) nt = (z, e).
Proof.
  intros Tz Rz Z0 Te Re E0 w. rewrite (surjective_pairing (h_getvrtdiv D r N M (fst w) (snd w) nt)).
  f_equal; (apply (coef_ext L); [apply coefs_length|first [apply Tz|apply Te]|]); intros k Hk; destruct (wind_vrtdiv z e k Tz Te Hk) as [V1 V2]; fold w in V1, V2.
  - rewrite V1. now apply first_or_leads.
  - rewrite V2. now apply first_or_leads.
Qed.
Lemma harmonics_exact : exact_transforms (harmonics D N M r) N M nt.
Proof.
  split; cbn [harmonics sh_grdtospec sh_spectogrd sh_getuv sh_getvrtdivspec sh_getgrad].
  - intros f. apply coefs_length.
  - intros x. apply shaped_mat_of.
  - intros a b f h F H. unfold h_analysis. rewrite <- coefs_lin. apply coefs_ext. intros m n. now apply correlate_lin.
  - intros a b x y X Y. unfold h_synthesis, sample. apply mat_lin_NM. intros i j. now apply sum_at_sadd.
  - intros f F. apply resolved_eq; [apply coefs_length|]. split; [apply coefs_truncated|]. apply coefs_real. intros n. rewrite correlate_corr. apply corr_0_real.
  - intros x y. split; apply shaped_mat_of.
  - intros a b x y x' y' X Y X' Y'. unfold h_getuv, sample. cbn [fst snd]. split; apply mat_lin_NM; intros i j; rewrite sum_at_potential_lin, sum_at_i_potential_lin by assumption; field; lra.
  - intros u v. split; apply coefs_length.
  - intros a b u v u' v' U V U' V'. unfold h_getvrtdiv. cbn [fst snd]. rewrite <- !coefs_lin.
    split; apply coefs_ext; intros m n; rewrite !correlate_lin by assumption; rewrite !i_times_mult; ring.
  - intros u v. assert (A : forall f, correlate h_north N M 0 0 f = RtoC 0) by (intros f; rewrite correlate_corr; apply corr_part_0; exact north_00).
    assert (B : forall f, correlate h_east N M 0 0 f = RtoC 0) by (intros f; rewrite correlate_corr; apply corr_part_0; intros phi; unfold h_east; change (INR 0) with 0; ring).
    unfold h_getvrtdiv. cbn [fst snd]. split; apply coef_first_zero; rewrite A, B, i_times_0; ring.
  - intros z Lz Rz Z0. apply resolved_eq in Rz; [|assumption]. apply helmholtz; [apply Rz|apply Rz|assumption|apply zeros_truncated|apply zeros_real|apply coef_zeros].
  - intros f. unfold h_analysis. rewrite coef_coefs by apply nspec_pos. destruct degree_first as [-> ->]. rewrite correlate_corr. pose proof (corr_0_real h_value 0 (mget f)) as H.
    destruct (Nat.leb 0 D); [|reflexivity]. destruct (corr h_value N M 0 0 (mget f)) as [p q]. cbn in *. rewrite H. ring.
  - intros c. apply resolved_eq; [apply const_length|]. split; [apply const_truncated|apply const_real].
  - intros c. apply still_wind; [apply const_length|apply repeat_length|intros k; apply potential_const|intros k; apply potential_zeros].
  - intros x. split; apply shaped_mat_of.
  - intros a b x y X Y. unfold h_getgrad, sample. cbn [fst snd]. split; apply mat_lin_NM; intros i j.
    + rewrite (sum_at_i_lin h_east a b x y); [field; lra|assumption|assumption|now apply lin_length|]. intros k Hk. now apply (coef_lin a b x y k L).
    + rewrite sum_at_sadd by assumption. field. lra.
  - intros c. exists c. etransitivity; [|exact (proj2 (resolved_iff _ (const_length c)) (conj (const_truncated c) (const_real c)))]. f_equal.
    unfold h_synthesis, sample. apply mat_of_ext. intros i j Hi Hj. rewrite sum_at_eq by apply const_length.
    rewrite (Rsum_tab_one L _ 0 nspec_pos).
    + destruct degree_first as [-> ->]. rewrite coef_const. unfold h_value. rewrite rodrigues_00. change (INR 0) with 0. rewrite Rmult_0_l. unfold swing. rewrite cos_0, sin_0. cbn. ring.
    + intros k Hk K. rewrite coef_const. destruct (Nat.eqb_spec k 0); [contradiction|]. rewrite swing_0. ring.
  - intros c. unfold h_getgrad, sample.
    f_equal; apply mat_of_ext; intros i j Hi Hj; rewrite sum_at_zero; try (unfold Rdiv; ring).
    + rewrite map_length. apply const_length.
    + intros k Hk. destruct (Nat.eq_dec k 0) as [->|K]; [left|right].
      * destruct degree_first as [-> ->]. unfold h_east. change (INR 0) with 0. ring.
      * rewrite coef_i_times, coef_const. destruct (Nat.eqb_spec k 0); [contradiction|]. apply i_times_0.
    + apply const_length.
    + intros k Hk. destruct (Nat.eq_dec k 0) as [->|K]; [left|right].
      * destruct degree_first as [-> ->]. apply north_00.
      * rewrite coef_const. now destruct (Nat.eqb_spec k 0).
Qed.
Lemma harmonics_calculus : exact_calculus (harmonics D N M r) r N M nt.
Proof.
  split.
  - intros x y w X Y Rx H. apply resolved_eq in Rx; [|assumption]. apply resolved_eq; [assumption|]. destruct Rx as [[_ T] Z]. split; [split; [assumption|]|].
    + intros k Hk G. rewrite H, (T k Hk G) by assumption. apply Cmult_0_r.
    + intros k Hk E. rewrite H by assumption. specialize (Z k Hk E). destruct (coef x k) as [p q]. cbn in *. rewrite Z. ring.
  - intros z e Lz Le Rz Re Z0 E0. apply resolved_eq in Rz; [|assumption]. apply resolved_eq in Re; [|assumption].
    apply helmholtz; [apply Rz|apply Rz|assumption|apply Re|apply Re|assumption].
  - intros c. apply still_wind; [apply repeat_length|apply const_length|intros k; apply potential_zeros|intros k; apply potential_const].
  - intros x k X Rx. apply resolved_eq in Rx; [|assumption]. destruct (Nat.lt_ge_cases k L) as [Hk|Hk].
    + apply (grad_vrtdiv x k (proj1 Rx) Hk).
    + apply coef_high. unfold harmonics, h_getvrtdiv. cbn [sh_getvrtdivspec fst]. rewrite coefs_length. exact Hk.
  - intros x k X Rx Hk. apply resolved_eq in Rx; [|assumption]. destruct (grad_vrtdiv x k (proj1 Rx) Hk) as [_ E].
    cbn [harmonics sh_getvrtdivspec sh_getgrad]. rewrite E. rewrite lead_real by (apply Rx || assumption).
    destruct (Nat.leb_spec (d k) D) as [G|G]; [reflexivity|]. rewrite (proj2 (proj1 Rx) k Hk G). symmetry. apply Cmult_0_r.
Qed.
End Transforms.
