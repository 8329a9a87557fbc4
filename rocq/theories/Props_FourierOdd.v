(** Zonal Fourier analysis on an odd number of longitudes: C124. *)
From Coq Require Export String.
From Verif Require Import Base Spec_Fourier Model_Grid Model_Fourier Proofs_Base Proofs_Grid Proofs_StateList Proofs_Plot Proofs_Trig Proofs_Filter Proofs_Fourier Props_Fourier.
From Verif Require Import Model_Region.
From Coq Require Import List Lia Lra.
Open Scope R_scope.

Section Odd.
Variable h : nat.
Hypothesis H1 : (1 <= h)%nat.
Let n := (2 * h + 1)%nat.
Lemma on_pos : (0 < n)%nat. Proof. unfold n. lia. Qed.
Lemma oRn_pos : 0 < INR n. Proof. apply lt_0_INR, on_pos. Qed.

Lemma odsum_eq k l p : (k <= h)%nat -> (l <= h)%nat -> Rsum (tab n (fun j => cos (ang n (Z.of_nat k - Z.of_nat l) j + p))) = if Nat.eqb k l then INR n * cos p else 0.
Proof.
  intros Hk Hl. destruct (Nat.eqb_spec k l) as [->|Ne].
  - apply sum_cos_phase_div; [apply on_pos|]. rewrite Z.sub_diag. exists 0%Z. lia.
  - apply sum_cos_phase; [apply on_pos|]. intros [z Hz]. unfold n in Hz. assert (z = 0 \/ z <= -1 \/ 1 <= z)%Z by lia. nia.
Qed.
Lemma odsum_plus k l p : (k <= h)%nat -> (l <= h)%nat -> Rsum (tab n (fun j => cos (ang n (Z.of_nat k + Z.of_nat l) j + p))) = if Nat.eqb k 0 && Nat.eqb l 0 then INR n * cos p else 0.
Proof.
  intros Hk Hl. destruct (Nat.eqb_spec k 0) as [->|Nk]; destruct (Nat.eqb_spec l 0) as [->|Nl]; cbn [andb].
  - apply sum_cos_phase_div; [apply on_pos|]. exists 0%Z. lia.
  - apply sum_cos_phase; [apply on_pos|]. intros [z Hz]. unfold n in Hz. assert (z <= 0 \/ 1 <= z)%Z by lia. nia.
  - apply sum_cos_phase; [apply on_pos|]. intros [z Hz]. unfold n in Hz. assert (z <= 0 \/ 1 <= z)%Z by lia. nia.
  - apply sum_cos_phase; [apply on_pos|]. intros [z Hz]. unfold n in Hz. assert (z <= 0 \/ 1 <= z)%Z by lia. nia.
Qed.
Lemma oangle_minus k l j : angle n k j - angle n l j = ang n (Z.of_nat k - Z.of_nat l) j.
Proof. unfold angle, ang. rewrite minus_IZR, <- !INR_IZR_INZ. pose proof oRn_pos. field. lra. Qed.
Lemma oangle_plus k l j : angle n k j + angle n l j = ang n (Z.of_nat k + Z.of_nat l) j.
Proof. unfold angle, ang. rewrite plus_IZR, <- !INR_IZR_INZ. pose proof oRn_pos. field. lra. Qed.
Lemma oprod k l p q : (k <= h)%nat -> (l <= h)%nat ->
  Rsum (tab n (fun j => cos (angle n k j + p) * cos (angle n l j + q)))
  = (if Nat.eqb k l then INR n / 2 * cos (p - q) else 0) + (if Nat.eqb k 0 && Nat.eqb l 0 then INR n / 2 * cos (p + q) else 0).
Proof.
  intros Hk Hl.
  rewrite (tab_ext _ _ (fun j => / 2 * cos (ang n (Z.of_nat k - Z.of_nat l) j + (p - q)) + / 2 * cos (ang n (Z.of_nat k + Z.of_nat l) j + (p + q)))).
  - rewrite Rsum_tab_plus, !Rsum_tab_scal, odsum_eq, odsum_plus by assumption.
    destruct (Nat.eqb k l), (Nat.eqb k 0 && Nat.eqb l 0)%bool; field.
  - intros j _. rewrite <- oangle_minus, <- oangle_plus.
    replace (angle n k j - angle n l j + (p - q)) with ((angle n k j + p) - (angle n l j + q)) by ring.
    replace (angle n k j + angle n l j + (p + q)) with ((angle n k j + p) + (angle n l j + q)) by ring.
    rewrite cos_minus, (cos_plus (angle n k j + p) (angle n l j + q)). field.
Qed.
Lemma sin_as_cos x : sin x = cos (x + - (PI / 2)).
Proof. rewrite cos_plus, cos_neg, sin_neg, cos_PI2, sin_PI2. ring. Qed.

(** coefficients of a wave *)
Lemma ocoeff_wave a b l k : (l <= h)%nat -> (k <= h)%nat ->
  cos_coeff (tab n (zonal_wave n l a b)) k = (if Nat.eqb k l then a * (if Nat.eqb k 0 then INR n else INR n / 2) else 0)
  /\ sin_coeff (tab n (zonal_wave n l a b)) k = (if Nat.eqb k l then b * (if Nat.eqb k 0 then 0 else INR n / 2) else 0).
Proof.
  intros Hl Hk. unfold cos_coeff, sin_coeff. rewrite tab_length.
  assert (G : forall p, Rsum (tab n (fun j => nth j (tab n (zonal_wave n l a b)) 0 * cos (angle n k j + p)))
    = a * Rsum (tab n (fun j => cos (angle n k j + p) * cos (angle n l j + 0))) + b * Rsum (tab n (fun j => cos (angle n k j + p) * cos (angle n l j + - (PI / 2))))).
  { intros p. rewrite <- !Rsum_tab_scal, <- Rsum_tab_plus. f_equal. apply tab_ext. intros j Hj. rewrite tab_nth by exact Hj. unfold zonal_wave.
    fold (angle n l j). rewrite <- sin_as_cos, Rplus_0_r. ring. }
  pose proof (G 0) as G0. pose proof (G (- (PI / 2))) as G1. rewrite !oprod in G0, G1 by assumption. split.
  - rewrite (tab_ext _ _ (fun j => nth j (tab n (zonal_wave n l a b)) 0 * cos (angle n k j + 0))) by (intros; now rewrite Rplus_0_r).
    rewrite G0. replace (0 - 0) with 0 by ring. replace (0 + 0) with 0 by ring.
    replace (0 - - (PI / 2)) with (PI / 2) by ring. replace (0 + - (PI / 2)) with (- (PI / 2)) by ring.
    rewrite cos_neg, cos_0, cos_PI2. destruct (Nat.eqb_spec k l) as [->|Ne]; [destruct (Nat.eqb l 0); cbn [andb]; field|].
    destruct (Nat.eqb_spec k 0), (Nat.eqb_spec l 0); cbn [andb]; try lia; field.
  - rewrite (tab_ext _ _ (fun j => nth j (tab n (zonal_wave n l a b)) 0 * cos (angle n k j + - (PI / 2)))) by (intros j _; rewrite <- sin_as_cos; reflexivity).
    rewrite G1. replace (- (PI / 2) - 0) with (- (PI / 2)) by ring. replace (- (PI / 2) + 0) with (- (PI / 2)) by ring.
    replace (- (PI / 2) - - (PI / 2)) with 0 by ring. replace (- (PI / 2) + - (PI / 2)) with (- PI) by field.
    rewrite !cos_neg, cos_0, cos_PI2, cos_PI. destruct (Nat.eqb_spec k l) as [->|Ne]; [destruct (Nat.eqb l 0); cbn [andb]; field|].
    destruct (Nat.eqb_spec k 0), (Nat.eqb_spec l 0); cbn [andb]; try lia; field.
Qed.

(** the restricted row *)
Definition orow (kmin kmax : nat) (x : vec) (j : nat) : R :=
  Rsum (tab (h + 1) (fun k => wave h (inside kmin kmax k * cfac h k / INR (2 * h) * cos_coeff x k) (inside kmin kmax k * cfac h k / INR (2 * h) * sin_coeff x k) k j)).
Lemma ohalf : (n / 2 = h)%nat.
Proof. unfold n. rewrite Nat.mul_comm, Nat.div_add_l by lia. cbn. lia. Qed.
Lemma orestrict kmin kmax x : length x = n -> restrict_row kmin kmax x = Ok (tab (2 * h) (orow kmin kmax x)).
Proof.
  intros L. unfold restrict_row, rfft. destruct x as [|x0 x]; [cbn in L; unfold n in L; lia|]. set (y := x0 :: x) in *. rewrite L, ohalf. cbn [bind].
  unfold irfft, keep. rewrite !tab_length.
  replace (2 * (h + 1 - 1))%nat with (2 * h)%nat by lia. destruct (Nat.eqb_spec (2 * h) 0) as [E|_]; [lia|].
  f_equal. apply tab_ext. intros j Hj. unfold orow, Rdiv. rewrite <- Rsum_tab_scal_r. f_equal. apply tab_ext. intros k Hk. cbv zeta.
  rewrite tab_nth by exact Hk. rewrite tab_nth by exact Hk. rewrite (half_n h H1). unfold inside, wave, cfac. fold (edge h k).
  change (dft y k) with (cos_coeff y k, - sin_coeff y k).
  destruct (_ || _); [ring|]. destruct (edge h k); ring.
Qed.
Lemma orow_coeff kmin kmax x k : (k <= h)%nat ->
  cos_coeff (tab (2 * h) (orow kmin kmax x)) k = inside kmin kmax k * cos_coeff x k
  /\ sin_coeff (tab (2 * h) (orow kmin kmax x)) k = if edge h k then 0 else inside kmin kmax k * sin_coeff x k.
Proof.
  intros Hk. pose proof (Rn_pos h H1) as Pn.
  destruct (coeff_fn h (tab (2 * h) (orow kmin kmax x)) k (tab_length _ _)) as [-> ->].
  rewrite (A_ext h _ (orow kmin kmax x)) by (intros j Hj; unfold fn; now rewrite tab_nth).
  rewrite (B_ext h _ (orow kmin kmax x)) by (intros j Hj; unfold fn; now rewrite tab_nth).
  unfold orow. split.
  - rewrite A_sum. rewrite (Rsum_tab_one _ _ k) by first [lia | intros j Hj Ne; rewrite (A_wave h H1) by lia; destruct (Nat.eqb_spec k j); [congruence|reflexivity]].
    rewrite (A_wave h H1), Nat.eqb_refl by assumption. pose proof (cfac_cnorm h k) as C.
    replace (inside kmin kmax k * cfac h k / INR (2 * h) * cos_coeff x k * cnorm h k) with (inside kmin kmax k * (cfac h k * cnorm h k) / INR (2 * h) * cos_coeff x k) by (field; lra).
    rewrite C. field. lra.
  - destruct (edge h k) eqn:E; [now apply (B_edge h H1)|].
    rewrite B_sum. rewrite (Rsum_tab_one _ _ k) by first [lia | intros j Hj Ne; rewrite (B_wave h H1) by lia; destruct (Nat.eqb_spec k j); [congruence|reflexivity]].
    rewrite (B_wave h H1), Nat.eqb_refl by assumption. unfold cfac, snorm. rewrite E. field. lra.
Qed.
Lemma orestrict_field nr f kmin kmax : shaped nr n f ->
  restrict_fourier_zonal f kmin kmax = Ok (mat_of nr (2 * h) (fun i => orow kmin kmax (nth i f []))).
Proof.
  intros [L F]. unfold restrict_fourier_zonal. apply Proofs_StateList.res_map_ok. subst nr. unfold mat_of. clear - H1 F.
  induction f as [|x f IH]; [constructor|]. inversion F as [|? ? Lx Ff]; subst.
  change (length (x :: f)) with (S (length f)). rewrite tab_S. constructor.
  - cbn [nth]. now apply orestrict.
  - apply IH. exact Ff.
Qed.
End Odd.

(** ** C124 *)
(** Sums over the longitudes against cosine and sine are kept for the wavenumbers
    in the range below the largest one, but there is one longitude less. *)
Theorem C124_spectrum : forall h nr f kmin kmax, (1 <= h)%nat -> shaped nr (2 * h + 1) f ->
  exists out, restrict_fourier_zonal f kmin kmax = Ok out /\ shaped nr (2 * h) out
  /\ forall i k, (i < nr)%nat -> (k <= h)%nat ->
    (in_range kmin kmax k -> cos_coeff (nth i out []) k = cos_coeff (nth i f []) k
       /\ sin_coeff (nth i out []) k = if Nat.eqb k h then 0 else sin_coeff (nth i f []) k)
    /\ (~ in_range kmin kmax k -> cos_coeff (nth i out []) k = 0 /\ sin_coeff (nth i out []) k = 0).
Proof.
  intros h nr f kmin kmax H1 Sf. eexists. split; [apply (orestrict_field h H1 nr); exact Sf|]. split; [apply shaped_mat_of|].
  intros i k Hi Hk. unfold mat_of. rewrite tab_nth by exact Hi.
  change (tab (2 * h) (fun j => orow h kmin kmax (nth i f []) j)) with (tab (2 * h) (orow h kmin kmax (nth i f []))).
  destruct (orow_coeff h H1 kmin kmax (nth i f []) k Hk) as [-> ->].
  assert (S0 : k = 0%nat -> sin_coeff (nth i f []) k = 0).
  { intros ->. unfold sin_coeff. apply Rsum_tab_zero. intros j _. cbn [INR].
    replace (2 * PI * (0 * INR j) / INR (length (nth i f []))) with 0 by (unfold Rdiv; ring). rewrite sin_0. ring. }
  unfold edge. split; intros Q; [rewrite inside_in by exact Q|rewrite inside_out by exact Q].
  - split; [ring|]. destruct (Nat.eqb_spec k 0) as [E|]; cbn [orb]; [|destruct (Nat.eqb_spec k h); ring].
    rewrite S0 by exact E. now destruct (Nat.eqb k h).
  - split; [ring|]. destruct (_ || _); ring.
Qed.
Print Assumptions C124_spectrum.

(** The zonal mean is multiplied by n / (n - 1) (or removed). *)
Theorem C124_mean : forall h nr f kmin kmax out, (1 <= h)%nat -> shaped nr (2 * h + 1) f -> restrict_fourier_zonal f kmin kmax = Ok out ->
  forall i, (i < nr)%nat ->
    Rsum (nth i out []) / INR (2 * h) = if Nat.eqb kmin 0 then INR (2 * h + 1) / INR (2 * h) * (Rsum (nth i f []) / INR (2 * h + 1)) else 0.
Proof.
  intros h nr f kmin kmax out H1 Sf E i Hi. destruct (C124_spectrum h nr f kmin kmax H1 Sf) as [out' [E' [So H]]].
  rewrite E in E'. apply Ok_inj in E'. subst out'.
  assert (P : 0 < INR (2 * h)) by (apply lt_0_INR; lia). assert (P' : 0 < INR (2 * h + 1)) by (apply lt_0_INR; lia).
  assert (C0 : forall x, cos_coeff x 0 = Rsum x).
  { intros x. rewrite (Rsum_ext_tab x). unfold cos_coeff. f_equal. apply tab_ext. intros j _. cbn [INR].
    replace (2 * PI * (0 * INR j) / INR (length x)) with 0 by (unfold Rdiv; ring). rewrite cos_0. ring. }
  destruct (H i 0%nat Hi ltac:(lia)) as [Q1 Q2]. rewrite !C0 in Q1, Q2. destruct (Nat.eqb_spec kmin 0) as [->|Ne].
  - rewrite (proj1 (Q1 ltac:(unfold in_range; lia))). revert P P'. generalize (INR (2 * h)) (INR (2 * h + 1)). intros p p' P P'. rewrite ?C0. field. split; lra.
  - rewrite (proj1 (Q2 ltac:(unfold in_range; lia))). unfold Rdiv. ring.
Qed.
Print Assumptions C124_mean.

Lemma wave_scale n k c a b j : zonal_wave n k (c * a) (c * b) j = c * zonal_wave n k a b j.
Proof. unfold zonal_wave. ring. Qed.
Lemma even_coeff h l k a b : (1 <= h)%nat -> (l <= h)%nat -> (k <= h)%nat ->
  cos_coeff (tab (2 * h) (zonal_wave (2 * h) l a b)) k = (if Nat.eqb k l then a * cnorm h k else 0)
  /\ sin_coeff (tab (2 * h) (zonal_wave (2 * h) l a b)) k = (if Nat.eqb k l then b * snorm h k else 0).
Proof.
  intros H1 Hl Hk. destruct (coeff_fn h (tab (2 * h) (zonal_wave (2 * h) l a b)) k (tab_length _ _)) as [-> ->].
  rewrite (A_ext h _ (wave h a b l)) by (intros j Hj; unfold fn; now rewrite tab_nth).
  rewrite (B_ext h _ (wave h a b l)) by (intros j Hj; unfold fn; now rewrite tab_nth).
  now rewrite (A_wave h H1), (B_wave h H1).
Qed.

(** A wave in the range comes back on one longitude less with its amplitude
    multiplied by n / (n - 1); from the shortest wave only half of the cosine
    part, multiplied by the same factor, remains. *)
Theorem C124_wave : forall h nr kmin kmax (a b : nat -> R) (k : nat -> nat), (1 <= h)%nat ->
  (forall i, (i < nr)%nat -> in_range kmin kmax (k i) /\ (k i <= h)%nat) ->
  let c := INR (2 * h + 1) / INR (2 * h) in
  restrict_fourier_zonal (mat_of nr (2 * h + 1) (fun i => zonal_wave (2 * h + 1) (k i) (a i) (b i))) kmin kmax
  = Ok (mat_of nr (2 * h) (fun i => if Nat.eqb (k i) h then zonal_wave (2 * h) h (c * (a i / 2)) 0 else zonal_wave (2 * h) (k i) (c * a i) (c * b i))).
Proof.
  intros h nr kmin kmax a b k H1 K c. set (f := mat_of nr (2 * h + 1) _).
  assert (Sf : shaped nr (2 * h + 1) f) by apply shaped_mat_of.
  assert (P : 0 < INR (2 * h)) by (apply lt_0_INR; lia). assert (P' : 0 < INR (2 * h + 1)) by (apply lt_0_INR; lia).
  destruct (C124_spectrum h nr f kmin kmax H1 Sf) as [out [E [So H]]]. rewrite E. f_equal.
  apply (nth_ext _ _ [] []); [unfold mat_of; rewrite tab_length; apply So|]. rewrite (proj1 So). intros i Hi.
  unfold mat_of. rewrite tab_nth by exact Hi. destruct (K i Hi) as [K1 K2].
  assert (Ef : nth i f [] = tab (2 * h + 1) (zonal_wave (2 * h + 1) (k i) (a i) (b i))) by (unfold f, mat_of; now rewrite tab_nth).
  apply (C66_coefficients_determine h); [exact H1|exact (shaped_row nr _ out i [] So Hi)|apply tab_length|].
  intros l Hl. destruct (H i l Hi Hl) as [Q1 Q2]. rewrite Ef in Q1.
  destruct (ocoeff_wave h H1 (a i) (b i) (k i) l K2 Hl) as [C1 C2]. rewrite C1, C2 in Q1.
  assert (Z0 : l <> k i -> cos_coeff (nth i out []) l = 0 /\ sin_coeff (nth i out []) l = 0).
  { intros Ne. destruct (Nat.eqb_spec l (k i)); [congruence|].
    assert (D : in_range kmin kmax l \/ ~ in_range kmin kmax l) by (unfold in_range; lia).
    destruct D as [D|D]; [destruct (Q1 D) as [-> ->]; split; [reflexivity|now destruct (Nat.eqb l h)]|now apply Q2]. }
  destruct (Nat.eqb_spec (k i) h) as [Eh|Nh].
  - rewrite Eh in *. change (tab (2 * h) (fun j => zonal_wave (2 * h) h (c * (a i / 2)) 0 j)) with (tab (2 * h) (zonal_wave (2 * h) h (c * (a i / 2)) 0)).
    destruct (even_coeff h h l (c * (a i / 2)) 0 H1 ltac:(lia) Hl) as [-> ->].
    destruct (Nat.eqb_spec l h) as [->|Ne]; [|now apply Z0]. destruct (Q1 K1) as [-> ->].
    unfold cnorm, edge, c. rewrite Nat.eqb_refl, orb_true_r. destruct (Nat.eqb_spec h 0); [lia|]. split; [field; lra|ring].
  - change (tab (2 * h) (fun j => zonal_wave (2 * h) (k i) (c * a i) (c * b i) j)) with (tab (2 * h) (zonal_wave (2 * h) (k i) (c * a i) (c * b i))).
    destruct (even_coeff h (k i) l (c * a i) (c * b i) H1 K2 Hl) as [-> ->].
    destruct (Nat.eqb_spec l (k i)) as [->|Ne]; [|now apply Z0]. destruct (Q1 K1) as [-> ->].
    unfold cnorm, snorm, edge, c. destruct (Nat.eqb_spec (k i) h); [congruence|]. destruct (Nat.eqb_spec (k i) 0); cbn [orb]; split; field; lra.
Qed.
Print Assumptions C124_wave.

(** The envelope of a wave is too large by the same factor. *)
Theorem C124_envelope : forall h nr kmin kmax (a b : nat -> R) (k : nat -> nat), (1 <= h)%nat ->
  (forall i, (i < nr)%nat -> in_range kmin kmax (k i) /\ (0 < k i < h)%nat) ->
  envelope_hilbert (mat_of nr (2 * h + 1) (fun i => zonal_wave (2 * h + 1) (k i) (a i) (b i))) kmin kmax
  = Ok (mat_of nr (2 * h) (fun i _ => INR (2 * h + 1) / INR (2 * h) * amplitude (a i) (b i))).
Proof.
  intros h nr kmin kmax a b k H1 K. set (c := INR (2 * h + 1) / INR (2 * h)).
  assert (P : 0 < INR (2 * h)) by (apply lt_0_INR; lia). assert (P' : 0 < INR (2 * h + 1)) by (apply lt_0_INR; lia).
  assert (Pc : 0 <= c) by (unfold c; apply Rlt_le, Rdiv_lt_0_compat; assumption).
  unfold envelope_hilbert. rewrite (C124_wave h nr kmin kmax a b k H1) by (intros i Hi; destruct (K i Hi); split; [assumption|lia]). cbn [bind]. fold c.
  pose proof (C67_inside_partial h nr kmin kmax (fun i => c * a i) (fun i => c * b i) k H1) as G.
  unfold envelope_hilbert in G. rewrite (C66_inside h nr kmin kmax (fun i => c * a i) (fun i => c * b i) k H1) in G by (intros i Hi; destruct (K i Hi); split; [lia|assumption]).
  cbn [bind] in G. replace (mat_of nr (2 * h) (fun i => if Nat.eqb (k i) h then _ else _)) with (mat_of nr (2 * h) (fun i => zonal_wave (2 * h) (k i) (c * a i) (c * b i))).
  - rewrite G by (intros i Hi; destruct (K i Hi); split; [assumption|now left]). f_equal. apply mat_of_ext. intros i j _ _. unfold amplitude.
    replace ((c * a i) ^ 2 + (c * b i) ^ 2) with (c * c * (a i ^ 2 + b i ^ 2)) by ring.
    rewrite sqrt_mult_alt by (apply Rmult_le_pos; exact Pc). now rewrite sqrt_square by exact Pc.
  - unfold mat_of. apply tab_ext. intros i Hi. destruct (Nat.eqb_spec (k i) h); [destruct (K i Hi); lia|reflexivity].
Qed.
Print Assumptions C124_envelope.
(** a grid with 5 longitudes, and a constant field whose values grow from 4 to 5 *)
Example C124_nonvacuous : (exists g, mk_grid 72 1 0 None = Ok g /\ g_nlon g = (2 * 2 + 1)%nat)
  /\ in_range 1 20 1 /\ shaped 1 (2 * 2 + 1) [[4; 4; 4; 4; 4]]
  /\ restrict_fourier_zonal [[4; 4; 4; 4; 4]] 0 20 = Ok [[5; 5; 5; 5]].
Proof.
  split; [eexists; split; [apply (mk_grid_Ok 72 1 0 5 2); lra || lia|reflexivity]|].
  split; [unfold in_range; lia|]. split; [split; [reflexivity|repeat constructor]|].
  assert (W : forall n a j, zonal_wave n 0 a 0 j = a).
  { intros n a j. unfold zonal_wave. cbn [INR]. replace (2 * PI * (0 * INR j) / INR n) with 0 by (unfold Rdiv; ring). rewrite cos_0, sin_0. ring. }
  pose proof (C124_wave 2 1 0 20 (fun _ => 4) (fun _ => 0) (fun _ => 0%nat) ltac:(lia) ltac:(intros; unfold in_range; lia)) as E. cbv beta zeta in E.
  assert (E1 : mat_of 1 (2 * 2 + 1) (fun _ => zonal_wave (2 * 2 + 1) 0 4 0) = [[4; 4; 4; 4; 4]]).
  { transitivity (mat_of 1 5 (fun _ _ => 4)); [apply mat_of_ext; intros; apply W|reflexivity]. }
  rewrite E1 in E. rewrite E. f_equal.
  transitivity (mat_of 1 4 (fun _ _ => 5)); [|reflexivity]. apply mat_of_ext. intros i j _ _. cbn [Nat.eqb].
  replace (INR (2 * 2 + 1) / INR (2 * 2) * 0) with 0 by ring. rewrite W. cbn [Nat.mul Nat.add INR]. field.
Qed.
