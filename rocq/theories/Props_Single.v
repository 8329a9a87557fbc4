(** C129, C130: the Laplacian and diffusion in single precision. *)
From Coq Require Import Reals ZArith Lia Lra.
From Coquelicot Require Import Complex.
From Flocq Require Import Core.
From Verif Require Import Base Model_Grid Model_Spectral Model_Float Model_Single Spec_Float Spec_Single Proofs_Base Proofs_Grid Proofs_Float Proofs_FloatRun Proofs_FloatGrid Proofs_Single.
From Coq Require Import List.
Import ListNotations.
Open Scope R_scope.

Lemma in_specindxn nt n : In n (specindxn nt) -> (n <= nt)%nat.
Proof. unfold specindxn. intros H. apply in_flat_map in H. destruct H as (m & Hm & Hn). apply in_seq in Hm, Hn. lia. Qed.
Lemma eigenvalue_model g n : g_rsphere g <> 0 -> INR n * (1 + INR n) / g_rsphere g / g_rsphere g = eigenvalue (g_rsphere g) n.
Proof. intros H. unfold eigenvalue. field. assumption. Qed.
Lemma two_u : 2 * u32 = / 2 ^ 23.
Proof. rewrite u32_value. assert (2 ^ 23 = 8388608) by (rewrite (pow_IZR 2 23); reflexivity). rewrite H. lra. Qed.
Lemma eigenvalue_zero r : eigenvalue r 0 = 0.
Proof. unfold eigenvalue, Rdiv. cbn [INR]. ring. Qed.
Lemma eigenvalue_pos r n : 1 <= r <= 2 ^ 30 -> (1 <= n)%nat -> (Z.of_nat n <= 2 ^ 20)%Z -> 0 < eigenvalue r n.
Proof. intros Hr H1 H2. pose proof (eigenvalue_range r n Hr H1 H2). pose proof (Rinv_0_lt_compat (2 ^ 59) ltac:(apply pow_lt; lra)). lra. Qed.
Lemma eigenvalue_cases r n : 1 <= r <= 2 ^ 30 -> (Z.of_nat n <= 2 ^ 20)%Z -> eigenvalue r n = 0 \/ / 2 ^ 59 <= eigenvalue r n <= 2 ^ 42.
Proof. intros Hr H. destruct n as [|n]; [left; apply eigenvalue_zero|right; apply eigenvalue_range; auto; lia]. Qed.

(** C129: the single precision eigenvalue of every spectral coefficient is off by at
    most the fraction 2^-23, and only those of degree 0 are 0 *)
Theorem C129_eigenvalues : forall g x, denotes x (g_rsphere g) -> 1 <= g_rsphere g <= 2 ^ 30 -> (Z.of_nat (g_ntrunc g) <= 2 ^ 20)%Z ->
  Forall2 (fun l e => exists v, denotes32 l v /\ within (/ 2 ^ 23) e v /\ 0 <= v /\ (v = 0 <-> e = 0)) (eigenvalues32 x (g_ntrunc g)) (laplacian_eigenvalues g).
Proof.
  intros g x Hx Hr Hn. unfold eigenvalues32, laplacian_eigenvalues. pose proof (in_specindxn (g_ntrunc g)) as I. induction (specindxn (g_ntrunc g)) as [|n l IH]; [constructor|].
  cbn [map]. constructor; [|apply IH; intros k Hk; apply I; now right]. rewrite eigenvalue_model by lra.
  assert (N : (Z.of_nat n <= 2 ^ 20)%Z) by (specialize (I n (or_introl eq_refl)); lia).
  destruct (eigenvalue32_denotes x _ n Hx Hr N) as [D W]. exists (fl_eig (g_rsphere g) n). split; [exact D|]. split; [now rewrite <- two_u|].
  destruct n as [|n].
  - rewrite eigenvalue_zero in *. unfold within in W. rewrite Rabs_R0, Rmult_0_r, Rminus_0_r in W. pose proof (Rabs_pos (fl_eig (g_rsphere g) 0)).
    assert (fl_eig (g_rsphere g) 0 = 0) as ->; [|split; [lra|tauto]]. destruct (Req_dec (fl_eig (g_rsphere g) 0) 0) as [|Z]; [assumption|]. apply Rabs_pos_lt in Z. lra.
  - pose proof (fl_eig_pos _ (S n) Hr ltac:(lia) N W). pose proof (eigenvalue_pos _ (S n) Hr ltac:(lia) N). split; [lra|]. split; intros; lra.
Qed.
Print Assumptions C129_eigenvalues.

(** C129: they still grow with the degree *)
Theorem C129_increasing : forall x r m n, denotes x r -> 1 <= r <= 2 ^ 30 -> (m < n)%nat -> (Z.of_nat n <= 2 ^ 20)%Z ->
  exists v w, denotes32 (eigenvalue32 x m) v /\ denotes32 (eigenvalue32 x n) w /\ v < w.
Proof.
  intros x r m n Hx Hr L Hn. destruct (eigenvalue32_denotes x r m Hx Hr ltac:(lia)) as [D W]. destruct (eigenvalue32_denotes x r n Hx Hr Hn) as [D' W'].
  do 2 eexists. split; [exact D|]. split; [exact D'|]. pose proof (eigenvalue_incr r m n Hr L Hn) as E. pose proof (eigenvalue_pos r n Hr ltac:(lia) Hn) as P.
  assert (P0 : 0 <= eigenvalue r m) by (destruct m; [rewrite eigenvalue_zero; lra|left; apply eigenvalue_pos; auto; lia]).
  unfold within in *. rewrite (Rabs_pos_eq (eigenvalue r n)) in W' by lra. rewrite (Rabs_pos_eq (eigenvalue r m)) in W by lra. rewrite u32_value in *. apply Rabs_le_inv in W, W'. lra.
Qed.
Print Assumptions C129_increasing.

(** C129: inverting the Laplacian of a coefficient gives it back up to the fraction
    2^-22: the rounding of the eigenvalues cancels *)
Theorem C129_inverse : forall x r n c a, denotes x r -> 1 <= r <= 2 ^ 30 -> (1 <= n)%nat -> (Z.of_nat n <= 2 ^ 20)%Z ->
  denotes32 c a -> a = 0 \/ / 2 ^ 60 <= Rabs a <= 2 ^ 60 ->
  exists v, denotes32 (poisson32 (eigenvalue32 x n) (laplace32 (eigenvalue32 x n) c)) v /\ within (/ 2 ^ 22) a v.
Proof.
  intros x r n c a Hx Hr H1 Hn Hc HA. destruct (eigenvalue32_denotes x r n Hx Hr Hn) as [D W]. pose proof (eigenvalue_range r n Hr H1 Hn) as R.
  pose proof (fl_eig_pos r n Hr H1 Hn W) as P.
  destruct (poisson_laplace32 _ _ c a D) with (2 := Hc) (3 := HA) as (v & Dv & Wv).
  - pose proof (within_low _ _ _ W) as L. pose proof (within_size _ _ _ W) as S. rewrite (Rabs_pos_eq (fl_eig r n)) in L, S by lra. rewrite u32_value in *.
    assert (P59 : 2 ^ 59 = 576460752303423488) by (rewrite (pow_IZR 2 59); reflexivity). assert (P60 : 2 ^ 60 = 1152921504606846976) by (rewrite (pow_IZR 2 60); reflexivity).
    assert (P42 : 2 ^ 42 = 4398046511104) by (rewrite (pow_IZR 2 42); reflexivity). assert (P43 : 2 ^ 43 = 8796093022208) by (rewrite (pow_IZR 2 43); reflexivity).
    rewrite P59, P42 in R. rewrite P60, P43. rewrite (Rabs_pos_eq (eigenvalue r n)) in L, S by lra. lra.
  - exists v. split; [exact Dv|]. apply within_weaken with (4 * u32); [|exact Wv]. rewrite u32_value. assert (2 ^ 22 = 4194304) by (rewrite (pow_IZR 2 22); reflexivity). rewrite H. lra.
Qed.
Print Assumptions C129_inverse.

(** C130: as long as no power of a non-zero eigenvalue underflows, the diffusion step
    of single precision differs from the exact one by at most the fraction
    (order + 2) 2^-22 *)
Theorem C130_accuracy : forall g x coeff dt c d order f F, denotes x (g_rsphere g) -> 1 <= g_rsphere g <= 2 ^ 30 -> (Z.of_nat (g_ntrunc g) <= 2 ^ 20)%Z ->
  denotes coeff c -> denotes dt d -> d * c = 0 \/ / 2 ^ 60 <= d * c <= 2 ^ 100 -> (1 <= order < 100)%nat ->
  (forall e, In e (laplacian_eigenvalues g) -> (e <> 0 -> / 2 ^ 118 <= e ^ order <= 2 ^ 118) /\ d * c * e ^ order <= 2 ^ 100) ->
  Forall2 denotes_pair f F -> (forall z, In z F -> Rabs (fst z) <= 2 ^ 100 /\ Rabs (snd z) <= 2 ^ 100) ->
  exists W, Forall2 denotes_pair (solve_diffusion32 x (g_ntrunc g) f coeff dt order) W
    /\ Forall2 (close_parts ((INR order + 2) / 2 ^ 22) (/ 2 ^ 150)) W (solve_diffusion_spectral g F c d order).
Proof.
  intros g x coeff dt c d order f F Hx Hr Hn Hc Hd HK HO HT HF HB. unfold solve_diffusion32, solve_diffusion_spectral, eigenvalues32. unfold laplacian_eigenvalues in *.
  assert (EB : (INR order + 2) / 2 ^ 22 = (4 * INR order + 8) * u32).
  { rewrite u32_value. assert (2 ^ 22 = 4194304) by (rewrite (pow_IZR 2 22); reflexivity). rewrite H. unfold Rdiv. lra. }
  assert (M : 4 <= 4 * INR order <= 400).
  { assert (1 <= INR order) by (apply (le_INR 1); lia). assert (INR order <= 100) by (replace 100 with (INR 100) by (cbn; lra); apply le_INR; lia). lra. }
  pose proof (in_specindxn (g_ntrunc g)) as I. revert f F HF HB. induction (specindxn (g_ntrunc g)) as [|n l IH]; intros f F HF HB.
  - exists []. destruct HF; cbn; split; constructor.
  - destruct HF as [|z Z f F Hz HF]; [exists []; split; constructor|]. destruct IH with (f := f) (F := F) as (W & W1 & W2); try assumption.
    { intros e He. apply HT. now right. }
    { intros k Hk. apply I. now right. }
    { intros y Hy. apply HB. now right. }
    assert (N : (Z.of_nat n <= 2 ^ 20)%Z) by (specialize (I n (or_introl eq_refl)); lia).
    destruct (eigenvalue32_denotes x _ n Hx Hr N) as [D V]. destruct Hz as [Z1 Z2]. destruct (HB Z (or_introl eq_refl)) as [B1 B2].
    destruct (HT _ (or_introl eq_refl)) as [HU HQ]. rewrite eigenvalue_model in HU, HQ by lra. cbn [map map2]. rewrite eigenvalue_model by lra. rewrite EB in *. set (ev := eigenvalue (g_rsphere g) n) in *.
    assert (E0 : 0 <= ev) by (unfold ev; destruct n; [rewrite eigenvalue_zero; lra|left; apply eigenvalue_pos; auto; lia]).
    destruct (power_within _ _ ev order D V ltac:(lia)) as (p & Dp & Wp).
    { destruct (Req_dec ev 0) as [|NZ]; [now left|right]. split; [lra|now apply HU]. }
    assert (EP : 0 <= ev ^ order) by now apply pow_le.
    destruct (diffuse_accurate coeff dt c d order _ p _ (4 * INR order) (fst z) (fst Z) Hc Hd HK Dp EP M Wp HQ Z1 B1) as (w1 & D1 & E1).
    destruct (diffuse_accurate coeff dt c d order _ p _ (4 * INR order) (snd z) (snd Z) Hc Hd HK Dp EP M Wp HQ Z2 B2) as (w2 & D2 & E2).
    exists ((w1, w2) :: W). split; constructor; try assumption; [now split|]. set (q := 1 + d * c * ev ^ order) in *.
    assert (Q : 1 <= q).
    { unfold q. assert (0 <= d * c) by (destruct HK as [->|HK]; [lra|pose proof (Rinv_0_lt_compat (2 ^ 60) ltac:(apply pow_lt; lra)); lra]).
      assert (0 <= d * c * ev ^ order) by now apply Rmult_le_pos. lra. }
    assert (EC : Cdiv Z (RtoC q) = (fst Z / q, snd Z / q)) by (destruct Z as [za zb]; unfold Cdiv, Cmult, Cinv, RtoC; cbn; f_equal; field; lra).
    rewrite EC. split; assumption.
Qed.
Print Assumptions C130_accuracy.

(** C130: for the orders 1 and 2 (the default of the model) nothing underflows, and the
    fraction is at most 2^-20 *)
Theorem C130_low_orders : forall g x coeff dt c d order f F, denotes x (g_rsphere g) -> 1 <= g_rsphere g <= 2 ^ 30 -> (Z.of_nat (g_ntrunc g) <= 2 ^ 20)%Z ->
  denotes coeff c -> denotes dt d -> d * c = 0 \/ / 2 ^ 60 <= d * c <= 2 ^ 100 -> order = 1%nat \/ order = 2%nat ->
  (forall e, In e (laplacian_eigenvalues g) -> d * c * e ^ order <= 2 ^ 100) ->
  Forall2 denotes_pair f F -> (forall z, In z F -> Rabs (fst z) <= 2 ^ 100 /\ Rabs (snd z) <= 2 ^ 100) ->
  exists W, Forall2 denotes_pair (solve_diffusion32 x (g_ntrunc g) f coeff dt order) W
    /\ Forall2 (close_parts (/ 2 ^ 20) (/ 2 ^ 150)) W (solve_diffusion_spectral g F c d order).
Proof.
  intros g x coeff dt c d order f F Hx Hr Hn Hc Hd HK HO HT HF HB. destruct (C130_accuracy g x coeff dt c d order f F) as (W & W1 & W2); try assumption; [lia| |].
  - intros e He. split; [|now apply HT]. intros NZ. unfold laplacian_eigenvalues in He. apply in_map_iff in He. destruct He as (n & <- & Hi). apply in_specindxn in Hi. rewrite eigenvalue_model in * by lra.
    destruct (eigenvalue_cases (g_rsphere g) n Hr ltac:(lia)) as [Z|[A B]]; [contradiction|].
    assert (P59 : 2 ^ 59 = 576460752303423488) by (rewrite (pow_IZR 2 59); reflexivity). assert (P42 : 2 ^ 42 = 4398046511104) by (rewrite (pow_IZR 2 42); reflexivity).
    assert (P118 : 2 ^ 118 = 332306998946228968225951765070086144) by (rewrite (pow_IZR 2 118); reflexivity). rewrite P59 in A. rewrite P42 in B. rewrite P118. set (ev := eigenvalue (g_rsphere g) n) in *.
    destruct HO as [-> | ->]; [rewrite pow_1; lra|]. replace (ev ^ 2) with (ev * ev) by ring. split.
    + apply Rle_trans with (/ 576460752303423488 * / 576460752303423488); [lra|apply Rmult_le_compat; lra].
    + apply Rle_trans with (4398046511104 * 4398046511104); [apply Rmult_le_compat; lra|lra].
  - exists W. split; [exact W1|]. assert (E : (INR order + 2) / 2 ^ 22 <= / 2 ^ 20).
    { assert (P22 : 2 ^ 22 = 4194304) by (rewrite (pow_IZR 2 22); reflexivity). assert (P20 : 2 ^ 20 = 1048576) by (rewrite (pow_IZR 2 20); reflexivity). rewrite P22, P20. destruct HO as [-> | ->]; cbn [INR]; lra. }
    clear - W2 E. induction W2 as [|w z W Z [H1 H2] W2 IH]; constructor; [|exact IH]. pose proof (Rabs_pos (fst z)). pose proof (Rabs_pos (snd z)).
    split; eapply Rle_trans; try eassumption; apply Rplus_le_compat_r, Rmult_le_compat_r; assumption.
Qed.
Print Assumptions C130_low_orders.

(** where all powers are rounded to 0, a step of diffusion does nothing *)
Lemma undamped nt x coeff dt c d order f F : denotes coeff c -> denotes dt d -> Rabs (d * c) <= 2 ^ 127 ->
  (forall n, (n <= nt)%nat -> denotes32 (power32 (eigenvalue32 x n) order) 0) -> length f = length (specindxn nt) ->
  Forall2 denotes_pair f F -> Forall2 denotes_pair (solve_diffusion32 x nt f coeff dt order) F.
Proof.
  intros Hc Hd HK HP L HF. unfold solve_diffusion32, eigenvalues32. pose proof (in_specindxn nt) as I. revert f F L HF.
  induction (specindxn nt) as [|n l IH]; intros f F L HF; destruct HF as [|z Z f F Hz HF]; try discriminate; [constructor|].
  cbn [map map2]. constructor.
  - assert (P : denotes32 (power32 (eigenvalue32 x n) order) 0) by (apply HP, I; now left). destruct Hz. split; cbn [fst snd]; eapply diffuse_undamped; eassumption.
  - apply IH; [intros k Hk; apply I; now right|now injection L|assumption].
Qed.
Lemma fl_eig_bound x r n b : denotes x r -> 1 <= r <= 2 ^ 30 -> (Z.of_nat n <= 2 ^ 20)%Z -> eigenvalue r n <= b ->
  denotes32 (eigenvalue32 x n) (fl_eig r n) /\ 0 <= fl_eig r n <= (1 + / 2 ^ 23) * b.
Proof.
  intros Hx Hr Hn HB. destruct (eigenvalue32_denotes x r n Hx Hr Hn) as [D W]. split; [exact D|].
  assert (P0 : 0 <= eigenvalue r n) by (destruct n; [rewrite eigenvalue_zero; lra|left; apply eigenvalue_pos; auto; lia]).
  rewrite two_u in W. pose proof (within_size _ _ _ W) as S. rewrite (Rabs_pos_eq (eigenvalue r n)) in S by lra.
  assert (P : 0 < / 2 ^ 23 < 1) by (rewrite <- two_u, u32_value; lra). unfold within in W. rewrite (Rabs_pos_eq (eigenvalue r n)) in W by lra. apply Rabs_le_inv in W.
  assert (0 <= fl_eig r n) by nra. rewrite Rabs_pos_eq in S by lra. split; [assumption|]. nra.
Qed.

(** C130: with order 4 or more, all coefficients up to the degree with the eigenvalue
    2^-38 (degree 11 on Earth) are left as they are, for every coefficient and time
    step *)
Theorem C130_order4 : forall x r coeff dt c d order n z a, denotes x r -> 1 <= r <= 2 ^ 30 -> (Z.of_nat n <= 2 ^ 20)%Z -> eigenvalue r n <= / 2 ^ 38 -> (4 <= order < 100)%nat ->
  denotes coeff c -> denotes dt d -> Rabs (d * c) <= 2 ^ 127 -> denotes32 z a -> denotes32 (diffuse32 coeff dt order (eigenvalue32 x n) z) a.
Proof.
  intros x r coeff dt c d order n z a Hx Hr Hn HB HO Hc Hd HK Hz. destruct (fl_eig_bound x r n _ Hx Hr Hn HB) as [D [B0 B1]].
  eapply diffuse_undamped; try eassumption. apply power_tiny4 with (fl_eig r n); [assumption|assumption| |lia].
  assert (P38 : 2 ^ 38 = 274877906944) by (rewrite (pow_IZR 2 38); reflexivity). rewrite P38, <- two_u, u32_value in B1.
  change (bpow radix2 (-75)) with (/ IZR (2 ^ 75)). change (2 ^ 75)%Z with 37778931862957161709568%Z.
  apply Rle_trans with ((1 + 2 * / 16777216) * / 274877906944 * ((1 + 2 * / 16777216) * / 274877906944)); [apply Rmult_le_compat; lra|lra].
Qed.
Print Assumptions C130_order4.

(** C130: with order 5 or more, diffusion does nothing at all where no eigenvalue
    exceeds 2^-32 *)
Theorem C130_order5 : forall g x coeff dt c d order f F, denotes x (g_rsphere g) -> 1 <= g_rsphere g <= 2 ^ 30 -> (Z.of_nat (g_ntrunc g) <= 2 ^ 20)%Z ->
  (forall e, In e (laplacian_eigenvalues g) -> e <= / 2 ^ 32) -> (5 <= order < 100)%nat -> denotes coeff c -> denotes dt d -> Rabs (d * c) <= 2 ^ 127 ->
  length f = length (laplacian_eigenvalues g) -> Forall2 denotes_pair f F -> Forall2 denotes_pair (solve_diffusion32 x (g_ntrunc g) f coeff dt order) F.
Proof.
  intros g x coeff dt c d order f F Hx Hr Hn HE HO Hc Hd HK HL HF. unfold laplacian_eigenvalues in *. rewrite map_length in HL.
  eapply undamped; try eassumption. intros n Hi.
  assert (HB : eigenvalue (g_rsphere g) n <= / 2 ^ 32).
  { rewrite <- eigenvalue_model by lra. apply HE. apply in_map_iff. exists n. split; [reflexivity|]. unfold specindxn. apply in_flat_map. exists 0%nat. split; apply in_seq; lia. }
  destruct (fl_eig_bound x _ n _ Hx Hr ltac:(lia) HB) as [D [B0 B1]]. apply power_tiny5 with (fl_eig (g_rsphere g) n); [assumption| |lia].
  split; [assumption|]. eapply Rle_trans; [exact B1|]. assert (P32 : 2 ^ 32 = 4294967296) by (rewrite (pow_IZR 2 32); reflexivity). rewrite P32, <- two_u, u32_value.
  change (bpow radix2 (-31)) with (/ IZR (2 ^ 31)). change (2 ^ 31)%Z with 2147483648%Z. lra.
Qed.
Print Assumptions C130_order5.

Definition earth : R := 6371200.
Lemma earth_double : denotes (b64_of_Z 6371200) earth.
Proof. apply (denotes_of_Z 6371200). lia. Qed.
Lemma earth_range : 1 <= earth <= 2 ^ 30.
Proof. unfold earth. assert (2 ^ 30 = 1073741824) by (rewrite (pow_IZR 2 30); reflexivity). lra. Qed.
Definition earth_grid : grid := mkGrid (5 / 2) earth (7292 / 100000000) 144 73 72.
Lemma earth_grid_ok : mk_grid (5 / 2) 6371200 (7292 / 100000000) None = Ok earth_grid.
Proof. rewrite (mk_grid_Ok (5 / 2) 6371200 (7292 / 100000000) 144 72); try lra; try lia. reflexivity. Qed.
Lemma earth_eigenvalues e : In e (laplacian_eigenvalues earth_grid) -> 0 <= e <= 5256 / (earth * earth).
Proof.
  intros H. unfold laplacian_eigenvalues in H. apply in_map_iff in H. destruct H as (n & <- & Hn). apply in_specindxn in Hn. cbn [g_ntrunc g_rsphere earth_grid] in *.
  assert (N : INR n <= 72) by (replace 72 with (INR 72) by (cbn; lra); apply le_INR; lia). pose proof (pos_INR n).
  replace (INR n * (1 + INR n) / earth / earth) with (INR n * (1 + INR n) * / (earth * earth)) by (unfold earth; field). unfold Rdiv.
  assert (0 < / (earth * earth)) by (unfold earth; lra). split; [apply Rmult_le_pos; nra|]. apply Rmult_le_compat_r; [lra|nra].
Qed.

(** "Every part of the field that varies is damped" is wrong in single precision: on
    the default grid with 2.5 degrees resolution and orders from 5 on, no step with any
    positive coefficient changes any field, while the exact step reduces every
    coefficient but the mean *)
Theorem C130_damping_refuted : exists g, mk_grid (5 / 2) 6371200 (7292 / 100000000) None = Ok g
  /\ forall coeff dt c d order f F, (5 <= order < 100)%nat -> denotes coeff c -> denotes dt d -> 0 < d * c <= 2 ^ 127 ->
     length f = length (laplacian_eigenvalues g) -> Forall2 denotes_pair f F ->
     Forall2 denotes_pair (solve_diffusion32 (b64_of_Z 6371200) (g_ntrunc g) f coeff dt order) F
     /\ forall i, (i < length F)%nat -> nth i (laplacian_eigenvalues g) 0 <> 0 -> nth i F (RtoC 0) <> RtoC 0 ->
        Cmod (nth i (solve_diffusion_spectral g F c d order) (RtoC 0)) < Cmod (nth i F (RtoC 0)).
Proof.
  exists earth_grid. split; [apply earth_grid_ok|]. intros coeff dt c d order f F HO Hc Hd HK HL HF. split.
  - apply (C130_order5 earth_grid _ coeff dt c d order f F earth_double earth_range); try assumption.
    + cbn. lia.
    + intros e He. apply earth_eigenvalues in He. assert (P32 : 2 ^ 32 = 4294967296) by (rewrite (pow_IZR 2 32); reflexivity). rewrite P32. unfold earth in He. lra.
    + rewrite Rabs_pos_eq; lra.
  - pose proof earth_eigenvalues as E. assert (LF : length f = length F) by (clear - HF; induction HF; cbn; congruence). rewrite HL in LF. clear HL HF f. rename LF into HF. unfold solve_diffusion_spectral. revert F HF E. generalize (laplacian_eigenvalues earth_grid).
    intros v. induction v as [|e v IH]; intros [|z F] L E i Hi; cbn [length] in *; try lia. destruct i as [|i]; cbn [nth map2].
    + intros He Hz. assert (E0 : 0 < e) by (specialize (E e (or_introl eq_refl)); lra). assert (P : 0 < d * c * e ^ order) by (apply Rmult_lt_0_compat; [lra|now apply pow_lt]).
      set (q := 1 + d * c * e ^ order) in *. assert (Q : 1 < q) by (unfold q; lra).
      rewrite Cmod_div by (intros Z; apply RtoC_inj in Z; lra). rewrite Cmod_R, Rabs_pos_eq by lra. pose proof (proj1 (Cmod_gt_0 z) Hz) as M.
      apply Rmult_lt_reg_r with q; [lra|]. unfold Rdiv. rewrite Rmult_assoc, Rinv_l by lra. nra.
    + apply IH; [lia|intros x Hx; apply E; now right|lia].
Qed.
Print Assumptions C130_damping_refuted.

Example C129_nonvacuous : denotes (b64_of_Z 6371200) earth /\ 1 <= earth <= 2 ^ 30 /\ denotes32 b32_one 1
  /\ eigenvalue32 (b64_of_Z 6371200) 72 = S754_finite false 9330236 (-56)
  /\ poisson32 (eigenvalue32 (b64_of_Z 6371200) 72) (laplace32 (eigenvalue32 (b64_of_Z 6371200) 72) b32_one) = b32_one.
Proof. split; [apply earth_double|]. split; [apply earth_range|]. split; [apply denotes_one32|]. split; vm_compute; reflexivity. Qed.
(** "Inverting the Laplacian gives the coefficient back exactly" is wrong in single
    precision: 1 becomes 1 - 2^-24 for the degree 1 on Earth *)
Theorem C129_exact_refuted : exists x n c v, denotes x 6371200 /\ (1 <= n)%nat /\ denotes32 c 1
  /\ denotes32 (poisson32 (eigenvalue32 x n) (laplace32 (eigenvalue32 x n) c)) v /\ v < 1.
Proof.
  exists (b64_of_Z 6371200), 1%nat, b32_one, (16777215 * / 16777216). split; [apply earth_double|]. split; [lia|]. split; [apply denotes_one32|]. split; [|lra].
  assert (E : poisson32 (eigenvalue32 (b64_of_Z 6371200) 1) (laplace32 (eigenvalue32 (b64_of_Z 6371200) 1) b32_one) = S754_finite false 16777215 (-24)) by (vm_compute; reflexivity).
  rewrite E. split; [reflexivity|]. split; [exact I|]. unfold float_value. f_equal. change 2 with (IZR (radix_val radix2)). rewrite <- bpow_powerRZ. reflexivity.
Qed.
Print Assumptions C129_exact_refuted.
(** the defaults of the model, coefficient 10^15 and order 2, with a step of 600 s *)
Example C130_nonvacuous : denotes (b64_of_Z 1000000000000000) 1000000000000000 /\ denotes (b64_of_Z 600) 600 /\ / 2 ^ 60 <= 600 * 1000000000000000 <= 2 ^ 100
  /\ (forall e, In e (laplacian_eigenvalues earth_grid) -> 600 * 1000000000000000 * e ^ 2 <= 2 ^ 100)
  /\ diffuse32 (b64_of_Z 1000000000000000) (b64_of_Z 600) 2 (eigenvalue32 (b64_of_Z 6371200) 72) b32_one = S754_finite false 16610127 (-24)
  /\ eigenvalue earth 11 <= / 2 ^ 38
  /\ power32 (eigenvalue32 (b64_of_Z 6371200) 11) 4 = S754_zero false /\ power32 (eigenvalue32 (b64_of_Z 6371200) 72) 4 <> S754_zero false
  /\ power32 (eigenvalue32 (b64_of_Z 6371200) 72) 5 = S754_zero false.
Proof.
  assert (P60 : 2 ^ 60 = 1152921504606846976) by (rewrite (pow_IZR 2 60); reflexivity). assert (P100 : 2 ^ 100 = 1267650600228229401496703205376) by (rewrite (pow_IZR 2 100); reflexivity).
  split; [apply (denotes_of_Z 1000000000000000); lia|]. split; [apply (denotes_of_Z 600); lia|]. rewrite P60, P100. split; [lra|].
  split; [intros e He; apply earth_eigenvalues in He; assert (e <= 1) by (unfold earth in He; lra); nra|].
  split; [vm_compute; reflexivity|]. split; [|split; [|split]; [vm_compute; reflexivity|vm_compute; discriminate|vm_compute; reflexivity]].
  unfold eigenvalue, earth. replace (INR 11) with 11 by (cbn; lra). assert (P38 : 2 ^ 38 = 274877906944) by (rewrite (pow_IZR 2 38); reflexivity). rewrite P38. lra.
Qed.
