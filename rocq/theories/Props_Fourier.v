(** Zonal Fourier analysis: theorems. *)
From Coq Require Export String.
From Verif Require Import Base Spec_Fourier Model_Grid Model_Fourier Proofs_Base Proofs_Grid Proofs_StateList Proofs_Plot Proofs_Trig Proofs_Filter Proofs_Fourier.
From Verif Require Import Model_Region.
From Coq Require Import List Lia Lra.
Open Scope R_scope.

Lemma inside_in kmin kmax k : in_range kmin kmax k -> inside kmin kmax k = 1.
Proof. intros [P Q]. unfold inside. destruct (Nat.ltb_spec k kmin); [lia|]. destruct (Nat.leb_spec (kmax + 1) k); [lia|]. reflexivity. Qed.
Lemma inside_out kmin kmax k : ~ in_range kmin kmax k -> inside kmin kmax k = 0.
Proof. intros P. unfold inside, in_range in *. destruct (Nat.ltb_spec k kmin); [reflexivity|]. destruct (Nat.leb_spec (kmax + 1) k); [reflexivity|lia]. Qed.
Lemma fn_ext_mat nr nc (F : nat -> nat -> R) i j : (i < nr)%nat -> (j < nc)%nat -> fn (nth i (mat_of nr nc F) []) j = F i j.
Proof. intros Hi Hj. unfold fn, mat_of. rewrite tab_nth by exact Hi. now rewrite tab_nth by exact Hj. Qed.
Lemma synth_ext h q f g j : (forall i, (i < 2 * h)%nat -> f i = g i) -> synth h q f j = synth h q g j.
Proof. intros E. unfold synth. f_equal. apply tab_ext. intros k _. now rewrite (A_ext h f g k E), (B_ext h f g k E). Qed.
Lemma synth_ext_q h q r f j : (forall k, (k <= h)%nat -> q k = r k) -> synth h q f j = synth h r f j.
Proof. intros E. unfold synth. f_equal. apply tab_ext. intros k Hk. now rewrite E by lia. Qed.
Lemma synth_lin h q a b f g j : synth h q (fun i => a * f i + b * g i) j = a * synth h q f j + b * synth h q g j.
Proof.
  unfold synth. rewrite <- !Rsum_tab_scal, <- Rsum_tab_plus. f_equal. apply tab_ext. intros k _.
  assert (EA : A h (fun i => a * f i + b * g i) k = a * A h f k + b * A h g k).
  { unfold A. rewrite <- !Rsum_tab_scal, <- Rsum_tab_plus. f_equal. apply tab_ext. intros; ring. }
  assert (EB : B h (fun i => a * f i + b * g i) k = a * B h f k + b * B h g k).
  { unfold B. rewrite <- !Rsum_tab_scal, <- Rsum_tab_plus. f_equal. apply tab_ext. intros; ring. }
  rewrite EA, EB. unfold wave. ring.
Qed.
Lemma restrict_field h nr f kmin kmax : (1 <= h)%nat -> shaped nr (2 * h) f ->
  restrict_fourier_zonal f kmin kmax = Ok (mat_of nr (2 * h) (fun i j => synth h (inside kmin kmax) (fn (nth i f [])) j)).
Proof.
  intros H1 [L F]. unfold restrict_fourier_zonal. apply res_map_ok. subst nr. unfold mat_of. clear - H1 F.
  induction f as [|x f IH]; [constructor|]. inversion F as [|? ? Lx Ff]; subst.
  change (length (x :: f)) with (S (length f)). rewrite tab_S. constructor.
  - cbn [nth]. now apply restrict_form.
  - now apply IH.
Qed.
Lemma row_coeff nr h x k (F : nat -> nat -> R) i : (i < nr)%nat -> x = nth i (mat_of nr (2 * h) F) [] -> cos_coeff x k = A h (F i) k /\ sin_coeff x k = B h (F i) k.
Proof.
  intros Hi ->. unfold mat_of. rewrite tab_nth by exact Hi. unfold cos_coeff, sin_coeff. rewrite tab_length. split; [unfold A|unfold B]; f_equal; apply tab_ext; intros j Hj; rewrite tab_nth by exact Hj; reflexivity.
Qed.
Lemma coeff_fn h x k : length x = (2 * h)%nat -> cos_coeff x k = A h (fn x) k /\ sin_coeff x k = B h (fn x) k.
Proof. intros L. unfold cos_coeff, sin_coeff. rewrite L. split; reflexivity. Qed.

(** ** C66 *)
Theorem C66_inside : forall h nr kmin kmax (a b : nat -> R) (k : nat -> nat), (1 <= h)%nat ->
  (forall i, (i < nr)%nat -> (k i <= h)%nat /\ in_range kmin kmax (k i)) ->
  restrict_fourier_zonal (mat_of nr (2 * h) (fun i => zonal_wave (2 * h) (k i) (a i) (b i))) kmin kmax
  = Ok (mat_of nr (2 * h) (fun i => zonal_wave (2 * h) (k i) (a i) (b i))).
Proof.
  intros h nr kmin kmax a b k H1 K. rewrite (restrict_field h nr) by (try assumption; apply shaped_mat_of). f_equal. apply mat_of_ext. intros i j Hi Hj.
  destruct (K i Hi) as [K1 K2].
  rewrite (synth_ext _ _ _ (wave h (a i) (b i) (k i))) by (intros l Hl; rewrite (fn_ext_mat nr (2 * h)) by assumption; reflexivity).
  rewrite synth_wave, inside_in by assumption. unfold wave, zonal_wave, angle. ring.
Qed.
Print Assumptions C66_inside.
Theorem C66_outside : forall h nr kmin kmax (a b : nat -> R) (k : nat -> nat), (1 <= h)%nat ->
  (forall i, (i < nr)%nat -> (k i <= h)%nat /\ ~ in_range kmin kmax (k i)) ->
  restrict_fourier_zonal (mat_of nr (2 * h) (fun i => zonal_wave (2 * h) (k i) (a i) (b i))) kmin kmax
  = Ok (mat_of nr (2 * h) (fun _ _ => 0)).
Proof.
  intros h nr kmin kmax a b k H1 K. rewrite (restrict_field h nr) by (try assumption; apply shaped_mat_of). f_equal. apply mat_of_ext. intros i j Hi Hj.
  destruct (K i Hi) as [K1 K2].
  rewrite (synth_ext _ _ _ (wave h (a i) (b i) (k i))) by (intros l Hl; rewrite (fn_ext_mat nr (2 * h)) by assumption; reflexivity).
  rewrite synth_wave, inside_out by assumption. ring.
Qed.
Print Assumptions C66_outside.
(** The shape is kept, the coefficients inside of the range are kept and those
    outside of the range are removed.  Missing: odd numbers of longitudes. *)
Theorem C66_spectrum_partial : forall h nr f kmin kmax, (1 <= h)%nat -> shaped nr (2 * h) f ->
  exists out, restrict_fourier_zonal f kmin kmax = Ok out /\ shaped nr (2 * h) out
  /\ forall i k, (i < nr)%nat -> (k <= h)%nat ->
    (in_range kmin kmax k -> cos_coeff (nth i out []) k = cos_coeff (nth i f []) k /\ sin_coeff (nth i out []) k = sin_coeff (nth i f []) k)
    /\ (~ in_range kmin kmax k -> cos_coeff (nth i out []) k = 0 /\ sin_coeff (nth i out []) k = 0).
Proof.
  intros h nr f kmin kmax H1 Sf. eexists. split; [apply (restrict_field h nr); assumption|]. split; [apply shaped_mat_of|].
  intros i k Hi Hk. destruct (row_coeff nr h _ k (fun i j => synth h (inside kmin kmax) (fn (nth i f [])) j) i Hi eq_refl) as [-> ->].
  destruct (coeff_fn h (nth i f []) k (shaped_row nr (2 * h) f i [] Sf Hi)) as [-> ->].
  change (fun j => synth h (inside kmin kmax) (fn (nth i f [])) j) with (synth h (inside kmin kmax) (fn (nth i f []))).
  rewrite A_synth, B_synth by assumption. split; intros Q; [rewrite inside_in by exact Q|rewrite inside_out by exact Q]; split; ring.
Qed.
Print Assumptions C66_spectrum_partial.
(** A row is determined by its coefficients *)
Theorem C66_coefficients_determine : forall h x y, (1 <= h)%nat -> length x = (2 * h)%nat -> length y = (2 * h)%nat ->
  (forall k, (k <= h)%nat -> cos_coeff x k = cos_coeff y k /\ sin_coeff x k = sin_coeff y k) -> x = y.
Proof.
  intros h x y H1 Lx Ly C. apply (nth_ext _ _ 0 0); [congruence|]. intros j Hj. rewrite Lx in Hj.
  change (fn x j = fn y j). rewrite <- (synth_all h H1 (fn x) j Hj), <- (synth_all h H1 (fn y) j Hj). unfold synth. f_equal. apply tab_ext. intros k Hk.
  destruct (C k ltac:(lia)) as [C1 C2]. destruct (coeff_fn h x k Lx) as [E1 E2]. destruct (coeff_fn h y k Ly) as [E3 E4].
  now rewrite <- E1, <- E2, <- E3, <- E4, C1, C2.
Qed.
Print Assumptions C66_coefficients_determine.
Theorem C66_linear : forall h nr f g a b kmin kmax outf outg, (1 <= h)%nat -> shaped nr (2 * h) f -> shaped nr (2 * h) g ->
  restrict_fourier_zonal f kmin kmax = Ok outf -> restrict_fourier_zonal g kmin kmax = Ok outg ->
  restrict_fourier_zonal (mat_of nr (2 * h) (fun i j => a * mget f i j + b * mget g i j)) kmin kmax
  = Ok (mat_of nr (2 * h) (fun i j => a * mget outf i j + b * mget outg i j)).
Proof.
  intros h nr f g a b kmin kmax outf outg H1 Sf Sg Ef Eg. rewrite (restrict_field h nr) in Ef, Eg by assumption. apply Ok_inj in Ef, Eg. subst outf outg.
  rewrite (restrict_field h nr) by (try assumption; apply shaped_mat_of). f_equal. apply mat_of_ext. intros i j Hi Hj. rewrite !mget_mat_of by assumption.
  rewrite <- synth_lin. apply synth_ext. intros l Hl. rewrite (fn_ext_mat nr (2 * h)) by assumption. reflexivity.
Qed.
Print Assumptions C66_linear.
Theorem C66_idempotent : forall h nr f kmin kmax out, (1 <= h)%nat -> shaped nr (2 * h) f ->
  restrict_fourier_zonal f kmin kmax = Ok out -> restrict_fourier_zonal out kmin kmax = Ok out.
Proof.
  intros h nr f kmin kmax out H1 Sf E. rewrite (restrict_field h nr) in E by assumption. apply Ok_inj in E. subst out.
  rewrite (restrict_field h nr) by (try assumption; apply shaped_mat_of). f_equal. apply mat_of_ext. intros i j Hi Hj.
  rewrite (synth_ext _ _ _ (synth h (inside kmin kmax) (fn (nth i f [])))) by (intros l Hl; now rewrite (fn_ext_mat nr (2 * h))).
  unfold synth at 1 3. f_equal. apply tab_ext. intros k Hk. rewrite A_synth, B_synth by (assumption || lia).
  unfold inside. destruct (_ || _); unfold wave, Rdiv; ring.
Qed.
Print Assumptions C66_idempotent.
Theorem C66_all_wavenumbers : forall h nr f kmax, (1 <= h)%nat -> shaped nr (2 * h) f -> (h <= kmax)%nat -> restrict_fourier_zonal f 0 kmax = Ok f.
Proof.
  intros h nr f kmax H1 Sf K. rewrite (restrict_field h nr) by assumption. f_equal. etransitivity; [|symmetry; apply mat_of_mget; exact Sf].
  apply mat_of_ext. intros i j Hi Hj. rewrite (synth_ext_q _ _ (fun _ => 1)) by (intros k Hk; apply inside_in; unfold in_range; lia).
  rewrite synth_all by assumption. reflexivity.
Qed.
Print Assumptions C66_all_wavenumbers.
(** Splitting a range splits the field *)
Theorem C66_split : forall h nr f kmin kmid kmax o1 o2, (1 <= h)%nat -> shaped nr (2 * h) f -> (kmin <= kmid + 1)%nat -> (kmid <= kmax)%nat ->
  restrict_fourier_zonal f kmin kmid = Ok o1 -> restrict_fourier_zonal f (kmid + 1) kmax = Ok o2 ->
  restrict_fourier_zonal f kmin kmax = Ok (mat_of nr (2 * h) (fun i j => mget o1 i j + mget o2 i j)).
Proof.
  intros h nr f kmin kmid kmax o1 o2 H1 Sf K1 K2 E1 E2. rewrite (restrict_field h nr) in E1, E2 |- * by assumption. apply Ok_inj in E1, E2. subst o1 o2.
  f_equal. apply mat_of_ext. intros i j Hi Hj. rewrite !mget_mat_of by assumption. unfold synth. rewrite <- Rsum_tab_plus. f_equal. apply tab_ext. intros k _.
  assert (I : inside kmin kmax k = inside kmin kmid k + inside (kmid + 1) kmax k).
  { unfold inside. destruct (Nat.ltb_spec k kmin), (Nat.leb_spec (kmax + 1) k), (Nat.leb_spec (kmid + 1) k), (Nat.ltb_spec k (kmid + 1)); cbn [orb]; try lia; ring. }
  rewrite I. unfold wave. unfold Rdiv. ring.
Qed.
Print Assumptions C66_split.
(** One column is lost when the number of longitudes is odd *)
Lemma restrict_odd h x kmin kmax : (1 <= h)%nat -> length x = (2 * h + 1)%nat -> exists y, restrict_row kmin kmax x = Ok y /\ length y = (2 * h)%nat.
Proof.
  intros H1 L. unfold restrict_row, rfft. destruct x as [|x0 x]; [cbn in L; lia|]. rewrite L. cbn [bind].
  replace ((2 * h + 1) / 2)%nat with h by (rewrite (Nat.mul_comm 2 h), Nat.div_add_l by lia; cbn; lia).
  unfold irfft, keep. rewrite !tab_length. replace (2 * (h + 1 - 1))%nat with (2 * h)%nat by lia.
  destruct (Nat.eqb_spec (2 * h) 0); [lia|]. eexists. split; [reflexivity|]. apply tab_length.
Qed.
Lemma restrict_odd_field h nr f kmin kmax : (1 <= h)%nat -> shaped nr (2 * h + 1) f ->
  exists out, restrict_fourier_zonal f kmin kmax = Ok out /\ shaped nr (2 * h) out.
Proof.
  intros H1 [L F]. subst nr. unfold restrict_fourier_zonal. induction f as [|x f IH]; [exists []; split; [reflexivity|split; [reflexivity|constructor]]|].
  inversion F as [|? ? Lx Ff]; subst. destruct (restrict_odd h x kmin kmax H1 Lx) as [y [Ey Ly]]. destruct (IH Ff) as [out [Eo [Lo Fo]]].
  exists (y :: out). cbn [res_map]. rewrite Ey. cbn [bind]. rewrite Eo. split; [reflexivity|]. split; [cbn; congruence|constructor; assumption].
Qed.
Theorem C66_odd_refuted : (exists g, mk_grid 72 1 0 None = Ok g /\ g_nlon g = 5%nat)
  /\ forall h nr f kmin kmax, (1 <= h)%nat -> (0 < nr)%nat -> shaped nr (2 * h + 1) f ->
  exists out, restrict_fourier_zonal f kmin kmax = Ok out /\ shaped nr (2 * h) out /\ ~ shaped nr (2 * h + 1) out.
Proof.
  split.
  - eexists. split; [apply (mk_grid_Ok 72 1 0 5 2); lra || lia|reflexivity].
  - intros h nr f kmin kmax H1 Nr Sf. destruct (restrict_odd_field h nr f kmin kmax H1 Sf) as [out [E So]]. exists out. split; [exact E|]. split; [exact So|].
    intros S2. pose proof (shaped_row nr _ out 0 [] So Nr). pose proof (shaped_row nr _ out 0 [] S2 Nr). lia.
Qed.
Print Assumptions C66_odd_refuted.
Lemma quarter_turns : (cos (angle 4 1 0) = 1 /\ sin (angle 4 1 0) = 0) /\ (cos (angle 4 1 1) = 0 /\ sin (angle 4 1 1) = 1)
  /\ (cos (angle 4 1 2) = -1 /\ sin (angle 4 1 2) = 0) /\ (cos (angle 4 1 3) = 0 /\ sin (angle 4 1 3) = -1).
Proof.
  unfold angle. cbn [INR].
  replace (2 * PI * (1 * 0) / (1 + 1 + 1 + 1)) with 0 by field. replace (2 * PI * (1 * 1) / (1 + 1 + 1 + 1)) with (PI / 2) by field.
  replace (2 * PI * (1 * (1 + 1)) / (1 + 1 + 1 + 1)) with PI by field. replace (2 * PI * (1 * (1 + 1 + 1)) / (1 + 1 + 1 + 1)) with (3 * (PI / 2)) by field.
  rewrite cos_0, sin_0, cos_PI2, sin_PI2, cos_PI, sin_PI, cos_3PI2, sin_3PI2. repeat split.
Qed.
Example C66_nonvacuous : (1 <= 2)%nat /\ shaped 1 (2 * 2) [[3; 1; 4; 2]] /\ in_range 1 1 1 /\ ~ in_range 1 1 2
  /\ restrict_fourier_zonal [[3; 1; 4; 2]] 1 1 = Ok [[-1 / 2; -1 / 2; 1 / 2; 1 / 2]].
Proof.
  split; [lia|]. assert (Sf : shaped 1 (2 * 2) [[3; 1; 4; 2]]) by (split; [reflexivity|repeat constructor]). split; [exact Sf|].
  split; [unfold in_range; lia|]. split; [unfold in_range; lia|].
  rewrite (restrict_field 2 1) by (try exact Sf; lia). unfold mat_of. cbn [tab seq map nth Nat.mul Nat.add].
  destruct quarter_turns as [[c0 s0] [[c1 s1] [[c2 s2] [c3 s3]]]].
  assert (EA : A 2 (fn [3; 1; 4; 2]) 1 = -1).
  { unfold A. change (2 * 2)%nat with 4%nat. unfold tab. cbn [seq map Rsum fold_right nth fn]. rewrite c0, c1, c2, c3. lra. }
  assert (EB : B 2 (fn [3; 1; 4; 2]) 1 = -1).
  { unfold B. change (2 * 2)%nat with 4%nat. unfold tab. cbn [seq map Rsum fold_right nth fn]. rewrite s0, s1, s2, s3. lra. }
  assert (ES : forall j, synth 2 (inside 1 1) (fn [3; 1; 4; 2]) j = - / 2 * (cos (angle 4 1 j) + sin (angle 4 1 j))).
  { intros j. unfold synth. rewrite (Rsum_tab_one _ _ 1) by first [lia | intros k Hk Ne; rewrite inside_out by (unfold in_range; lia); unfold wave, Rdiv; ring].
    rewrite inside_in by (unfold in_range; lia). rewrite EA, EB. unfold wave. change (2 * 2)%nat with 4%nat. change (cfac 2 1) with 2. cbn [INR]. field. }
  unfold tab. cbn [seq map]. rewrite !ES, c0, c1, c2, c3, s0, s1, s2, s3. do 2 f_equal.
  repeat (apply (f_equal2 (@cons R)); [lra|]). reflexivity.
Qed.

(** ** C67 *)
Lemma envelope_field h nr f kmin kmax : (1 <= h)%nat -> shaped nr (2 * h) f ->
  envelope_hilbert f kmin kmax = Ok (mat_of nr (2 * h) (fun i j =>
    cabs (nth j (hilbert (tab (2 * h) (synth h (inside kmin kmax) (fn (nth i f []))))) (0, 0)))).
Proof.
  intros H1 Sf. unfold envelope_hilbert. rewrite (restrict_field h nr) by assumption. cbn [bind]. f_equal. unfold mat_of. rewrite tab_map. apply tab_ext. intros i Hi.
  unfold hilbert at 1. rewrite tab_length, tab_map. apply tab_ext. intros j Hj. unfold hilbert. rewrite tab_length, tab_nth by exact Hj. reflexivity.
Qed.
Lemma edge_cos h k j : (1 <= h)%nat -> edge h k = true -> cos (angle (2 * h) k j) ^ 2 = 1.
Proof.
  intros H1 E. pose proof (sin2_cos2 (angle (2 * h) k j)) as P. unfold Rsqr in P. rewrite (sin_edge h H1 k j E) in P. lra.
Qed.
(** Wavenumbers 0 and h only have a cosine part on 2 h points.
    Missing: odd numbers of longitudes. *)
Theorem C67_inside_partial : forall h nr kmin kmax (a b : nat -> R) (k : nat -> nat), (1 <= h)%nat ->
  (forall i, (i < nr)%nat -> in_range kmin kmax (k i) /\ ((0 < k i < h)%nat \/ (k i = 0 \/ k i = h)%nat /\ b i = 0)) ->
  envelope_hilbert (mat_of nr (2 * h) (fun i => zonal_wave (2 * h) (k i) (a i) (b i))) kmin kmax
  = Ok (mat_of nr (2 * h) (fun i _ => amplitude (a i) (b i))).
Proof.
  intros h nr kmin kmax a b k H1 K. rewrite (envelope_field h nr) by (try assumption; apply shaped_mat_of). f_equal. apply mat_of_ext. intros i j Hi Hj.
  destruct (K i Hi) as [K1 K2]. assert (Kh : (k i <= h)%nat) by lia.
  rewrite (hilbert_wave h H1 _ (a i) (b i) (k i) j); try assumption.
  - unfold cabs, amplitude. cbn [fst snd]. f_equal. unfold wave. destruct K2 as [K2|[K2 ->]].
    + replace (edge h (k i)) with false by (unfold edge; destruct (Nat.eqb_spec (k i) 0), (Nat.eqb_spec (k i) h); lia || reflexivity).
      pose proof (sin2_cos2 (angle (2 * h) (k i) j)) as P. unfold Rsqr in P.
      transitivity ((a i ^ 2 + b i ^ 2) * (sin (angle (2 * h) (k i) j) * sin (angle (2 * h) (k i) j) + cos (angle (2 * h) (k i) j) * cos (angle (2 * h) (k i) j))); [ring|rewrite P; ring].
    + assert (E : edge h (k i) = true) by (unfold edge; destruct K2 as [->| ->]; rewrite ?Nat.eqb_refl, ?orb_true_r; reflexivity). rewrite E.
      transitivity (a i ^ 2 * cos (angle (2 * h) (k i) j) ^ 2); [ring|]. rewrite edge_cos by assumption. ring.
  - apply tab_length.
  - intros l Hl. unfold fn at 1. rewrite tab_nth by exact Hl.
    rewrite (synth_ext _ _ _ (wave h (a i) (b i) (k i))) by (intros m Hm; rewrite (fn_ext_mat nr (2 * h)) by assumption; reflexivity).
    rewrite synth_wave, inside_in by assumption. ring.
Qed.
Print Assumptions C67_inside_partial.
Theorem C67_outside_partial : forall h nr kmin kmax (a b : nat -> R) (k : nat -> nat), (1 <= h)%nat ->
  (forall i, (i < nr)%nat -> (k i <= h)%nat /\ ~ in_range kmin kmax (k i)) ->
  envelope_hilbert (mat_of nr (2 * h) (fun i => zonal_wave (2 * h) (k i) (a i) (b i))) kmin kmax = Ok (mat_of nr (2 * h) (fun _ _ => 0)).
Proof.
  intros h nr kmin kmax a b k H1 K. rewrite (envelope_field h nr) by (try assumption; apply shaped_mat_of). f_equal. apply mat_of_ext. intros i j Hi Hj.
  destruct (K i Hi) as [K1 K2].
  rewrite (hilbert_wave h H1 _ 0 0 0 j); try assumption; try lia.
  - unfold cabs, wave. cbn [fst snd]. transitivity (sqrt 0); [f_equal|apply sqrt_0]. destruct (edge h 0); ring.
  - apply tab_length.
  - intros l Hl. unfold fn at 1. rewrite tab_nth by exact Hl.
    rewrite (synth_ext _ _ _ (wave h (a i) (b i) (k i))) by (intros m Hm; rewrite (fn_ext_mat nr (2 * h)) by assumption; reflexivity).
    rewrite synth_wave, inside_out by assumption. unfold wave. ring.
Qed.
Print Assumptions C67_outside_partial.
Theorem C67_bound_partial : forall h nr f kmin kmax x e, (1 <= h)%nat -> shaped nr (2 * h) f ->
  restrict_fourier_zonal f kmin kmax = Ok x -> envelope_hilbert f kmin kmax = Ok e ->
  forall i j, (i < nr)%nat -> (j < 2 * h)%nat -> Rabs (mget x i j) <= mget e i j.
Proof.
  intros h nr f kmin kmax x e H1 Sf Ex Ee i j Hi Hj. rewrite (restrict_field h nr) in Ex by assumption. rewrite (envelope_field h nr) in Ee by assumption. apply Ok_inj in Ex, Ee. subst x e.
  rewrite !mget_mat_of by assumption. rewrite (hilbert_form h H1) by (try assumption; apply tab_length). unfold cabs. cbn [fst snd]. unfold fn at 2. rewrite tab_nth by exact Hj.
  rewrite <- sqrt_Rsqr_abs. apply sqrt_le_1_alt. unfold Rsqr. match goal with |- ?s * ?s <= ?s ^ 2 + ?t ^ 2 => pose proof (Rle_0_sqr t) as P; unfold Rsqr in P; lra end.
Qed.
Print Assumptions C67_bound_partial.
Theorem C67_odd_refuted : forall h nr f kmin kmax, (1 <= h)%nat -> (0 < nr)%nat -> shaped nr (2 * h + 1) f ->
  exists out, envelope_hilbert f kmin kmax = Ok out /\ shaped nr (2 * h) out /\ ~ shaped nr (2 * h + 1) out.
Proof.
  intros h nr f kmin kmax H1 Nr Sf. destruct (restrict_odd_field h nr f kmin kmax H1 Sf) as [x [E [L F]]]. unfold envelope_hilbert. rewrite E. cbn [bind].
  eexists. split; [reflexivity|].
  assert (So : shaped nr (2 * h) (map (fun row => map cabs (hilbert row)) x)).
  { split; [now rewrite map_length|]. apply Forall_forall. intros r Hr. apply in_map_iff in Hr. destruct Hr as [r' [<- Hr]]. rewrite map_length. unfold hilbert. rewrite tab_length.
    exact (proj1 (Forall_forall _ _) F r' Hr). }
  split; [exact So|]. intros S2. pose proof (shaped_row nr _ _ 0 [] So Nr). pose proof (shaped_row nr _ _ 0 [] S2 Nr). lia.
Qed.
Print Assumptions C67_odd_refuted.
Example C67_nonvacuous : (1 <= 4)%nat /\ in_range 2 10 3 /\ (0 < 3 < 4)%nat /\ amplitude 3 4 = 5 /\ ~ in_range 2 10 1 /\ (1 <= 4)%nat.
Proof.
  unfold in_range. repeat split; try lia. unfold amplitude. replace (3 ^ 2 + 4 ^ 2) with (5 * 5) by ring. apply sqrt_square. lra.
Qed.

(** ** C68 *)
Lemma argmax_from_spec l best besti i (f : nat -> R) :
  (forall m, (m < length l)%nat -> nth m l 0 = f (i + m)%nat) -> (besti < i)%nat -> best = f besti ->
  (forall m, (m < i)%nat -> f m <= best) -> (forall m, (m < besti)%nat -> f m < best) ->
  let r := argmax_from best besti i l in
  (r < i + length l)%nat /\ (forall m, (m < i + length l)%nat -> f m <= f r) /\ (forall m, (m < r)%nat -> f m < f r).
Proof.
  revert best besti i. induction l as [|x l IH]; intros best besti i Hl Hb Eb Hm Hs.
  - cbn. rewrite Nat.add_0_r. subst best. repeat split; [lia| |]; assumption.
  - cbn [argmax_from length]. rewrite Nat.add_succ_r, <- Nat.add_succ_l.
    assert (Ex : x = f i) by (specialize (Hl 0%nat); cbn in Hl; rewrite Nat.add_0_r in Hl; apply Hl; lia).
    assert (Hl' : forall m, (m < length l)%nat -> nth m l 0 = f (S i + m)%nat).
    { intros m Hm'. specialize (Hl (S m)). cbn in Hl. rewrite Hl by lia. f_equal. lia. }
    destruct (Rltb best x) eqn:E.
    + apply Rltb_true in E. apply IH; [exact Hl'|lia|exact Ex| |].
      * intros m Hm'. destruct (Nat.eq_dec m i) as [->|]; [lra|]. specialize (Hm m ltac:(lia)). lra.
      * intros m Hm'. specialize (Hm m ltac:(lia)). lra.
    + apply Rltb_false in E. apply IH; [exact Hl'|lia|exact Eb| |exact Hs].
      intros m Hm'. destruct (Nat.eq_dec m i) as [->|]; [lra|]. apply Hm. lia.
Qed.
Lemma argmax_tab n (f : nat -> R) : (0 < n)%nat -> exists r, argmax (tab n f) = Ok r /\ (r < n)%nat /\ (forall m, (m < n)%nat -> f m <= f r) /\ (forall m, (m < r)%nat -> f m < f r).
Proof.
  intros Hn. destruct n as [|n]; [lia|]. rewrite tab_S. cbn [argmax]. eexists. split; [reflexivity|].
  pose proof (argmax_from_spec (tab n (fun i => f (S i))) (f 0%nat) 0 1 f) as P. rewrite tab_length in P. apply P; [|lia|reflexivity| |lia].
  - intros m Hm. now rewrite tab_nth.
  - intros m Hm. replace m with 0%nat by lia. lra.
Qed.
Lemma power_form x : x <> [] -> power x = Ok (tab (length x / 2 + 1) (wave_power x)).
Proof.
  intros N. unfold power, rfft. destruct x as [|y x]; [congruence|]. cbn [bind]. rewrite tab_map. f_equal. apply tab_ext. intros k _.
  unfold cabs, dft, wave_power, cos_coeff, sin_coeff, angle. cbn [fst snd]. rewrite pow2_sqrt; [ring|].
  match goal with |- 0 <= ?s ^ 2 + (- ?t) ^ 2 => pose proof (Rle_0_sqr s); pose proof (Rle_0_sqr t); unfold Rsqr in *; lra end.
Qed.
Lemma py_slice_tab {T} n (f : nat -> T) a b : py_slice (tab n f) a b = tab (Nat.min (b - a) (n - a)) (fun i => f (a + i)%nat).
Proof.
  assert (Sk : forall n a (f : nat -> T), skipn a (tab n f) = tab (n - a) (fun i => f (a + i)%nat)).
  { clear. intros n a. revert n. induction a as [|a IH]; intros n f; [now rewrite Nat.sub_0_r|]. destruct n as [|n]; [reflexivity|]. rewrite tab_S. cbn [skipn]. now rewrite IH. }
  assert (Fs : forall m n (f : nat -> T), firstn m (tab n f) = tab (Nat.min m n) f).
  { clear. intros m. induction m as [|m IH]; intros n f; [reflexivity|]. destruct n as [|n]; [reflexivity|]. rewrite tab_S. cbn [firstn Nat.min]. rewrite IH, tab_S. reflexivity. }
  unfold py_slice. rewrite Sk, Fs. reflexivity.
Qed.
(** The result plus the lower end of the range is the first wavenumber with the
    largest power.  Missing: the lower end of the range is never added. *)
Theorem C68_offset_partial : forall nr nc f g kmin kmax, shaped nr nc f -> (0 < nc)%nat -> (kmin <= kmax)%nat -> (kmin <= nc / 2)%nat ->
  exists ks, dominant_wavenumber_fourier f g None kmin kmax = Ok (A1 (map INR ks)) /\ length ks = nr
  /\ forall i, (i < nr)%nat -> let k := (kmin + nth i ks 0)%nat in
     in_range kmin (Nat.min kmax (nc / 2)) k
     /\ (forall l, in_range kmin (Nat.min kmax (nc / 2)) l -> wave_power (nth i f []) l <= wave_power (nth i f []) k)
     /\ (forall l, in_range kmin (Nat.min kmax (nc / 2)) l -> (l < k)%nat -> wave_power (nth i f []) l < wave_power (nth i f []) k).
Proof.
  intros nr nc f g kmin kmax [L F] Nc K1 K2. subst nr.
  assert (Q : exists ks, res_map (fun x => do p <- power x; do k <- argmax (py_slice p kmin (kmax + 1)); Ok (INR k)) f = Ok (map INR ks) /\ length ks = length f
    /\ forall i, (i < length f)%nat -> let k := (kmin + nth i ks 0)%nat in
     in_range kmin (Nat.min kmax (nc / 2)) k
     /\ (forall l, in_range kmin (Nat.min kmax (nc / 2)) l -> wave_power (nth i f []) l <= wave_power (nth i f []) k)
     /\ (forall l, in_range kmin (Nat.min kmax (nc / 2)) l -> (l < k)%nat -> wave_power (nth i f []) l < wave_power (nth i f []) k)).
  { induction f as [|x f IH]; [exists []; split; [reflexivity|split; [reflexivity|cbn; lia]]|].
    inversion F as [|? ? Lx Ff]; subst. destruct (IH Ff) as [ks [E [Lk P]]].
    destruct (argmax_tab (Nat.min (kmax + 1 - kmin) (length x / 2 + 1 - kmin)) (fun i => wave_power x (kmin + i)%nat)) as [r [Er [Hr [M1 M2]]]]; [lia|].
    exists (r :: ks). split; [|split; [cbn; congruence|]].
    - cbn [res_map]. rewrite power_form by (destruct x; [cbn in Nc; lia|discriminate]). cbn [bind]. rewrite py_slice_tab, Er. cbn [bind]. rewrite E. reflexivity.
    - intros [|i] Hi; cbn [nth]; [|apply P; cbn in Hi; lia]. unfold in_range. split; [lia|]. split.
      + intros l Hl. specialize (M1 (l - kmin)%nat). cbv beta in M1. replace (kmin + (l - kmin))%nat with l in M1 by lia. apply M1. lia.
      + intros l Hl Hlt. specialize (M2 (l - kmin)%nat). cbv beta in M2. replace (kmin + (l - kmin))%nat with l in M2 by lia. apply M2. lia. }
  destruct Q as [ks [E P]]. exists ks. split; [|exact P]. unfold dominant_wavenumber_fourier. rewrite E. reflexivity.
Qed.
Print Assumptions C68_offset_partial.
(** It is the dominant wavenumber if the range starts at zero *)
Theorem C68_from_zero_partial : forall nr nc f g kmax, shaped nr nc f -> (0 < nc)%nat ->
  exists ks, dominant_wavenumber_fourier f g None 0 kmax = Ok (A1 (map INR ks)) /\ length ks = nr
  /\ forall i, (i < nr)%nat -> in_range 0 (Nat.min kmax (nc / 2)) (nth i ks 0%nat)
     /\ (forall l, in_range 0 (Nat.min kmax (nc / 2)) l -> wave_power (nth i f []) l <= wave_power (nth i f []) (nth i ks 0%nat)).
Proof.
  intros nr nc f g kmax Sf Nc. destruct (C68_offset_partial nr nc f g 0 kmax Sf Nc ltac:(lia) ltac:(lia)) as [ks [E [L P]]].
  exists ks. split; [exact E|]. split; [exact L|]. intros i Hi. destruct (P i Hi) as [P1 [P2 _]]. split; [exact P1|exact P2].
Qed.
Print Assumptions C68_from_zero_partial.
(** A field made up of waves with wavenumber k, for any range that includes k *)
Theorem C68_wave_refuted : forall h nr (a b : nat -> R) k g kmin kmax, (0 < k < h)%nat -> in_range kmin kmax k ->
  (forall i, (i < nr)%nat -> amplitude (a i) (b i) <> 0) ->
  dominant_wavenumber_fourier (mat_of nr (2 * h) (fun i => zonal_wave (2 * h) k (a i) (b i))) g None kmin kmax
  = Ok (A1 (tab nr (fun _ => INR k - INR kmin))).
Proof.
  intros h nr a b k g kmin kmax Hk [K1 K2] Am. assert (H1 : (1 <= h)%nat) by lia.
  destruct (C68_offset_partial nr (2 * h) (mat_of nr (2 * h) (fun i => zonal_wave (2 * h) k (a i) (b i))) g kmin kmax) as [ks [E [L P]]];
    [apply shaped_mat_of|lia|lia|rewrite (half_n h H1); lia|].
  rewrite E. do 2 f_equal. apply (nth_ext _ _ 0 0); [now rewrite map_length, tab_length|]. intros i Hi. rewrite map_length, L in Hi. rewrite tab_nth by exact Hi.
  change 0 with (INR 0) at 1. rewrite map_nth. rewrite <- minus_INR by lia. f_equal.
  destruct (P i Hi) as [P1 [P2 _]]. rewrite (half_n h H1) in *. set (r := (kmin + nth i ks 0)%nat) in *.
  assert (W : forall l, (l <= h)%nat -> wave_power (nth i (mat_of nr (2 * h) (fun i => zonal_wave (2 * h) k (a i) (b i))) []) l = if Nat.eqb l k then (a i ^ 2 + b i ^ 2) * (INR (2 * h) / 2) ^ 2 else 0).
  { intros l Hl. unfold wave_power. destruct (row_coeff nr h _ l (fun i => zonal_wave (2 * h) k (a i) (b i)) i Hi eq_refl) as [-> ->].
    change (zonal_wave (2 * h) k (a i) (b i)) with (wave h (a i) (b i) k). rewrite A_wave, B_wave by (assumption || lia). destruct (Nat.eqb_spec l k) as [->|]; [|ring].
    unfold cnorm, snorm. replace (edge h k) with false by (unfold edge; destruct (Nat.eqb_spec k 0), (Nat.eqb_spec k h); lia || reflexivity). ring. }
  destruct (Nat.eq_dec r k) as [R1|R1]; [unfold r in R1; lia|]. exfalso. unfold in_range in *.
  specialize (P2 k ltac:(lia)). rewrite !W, Nat.eqb_refl in P2 by lia. destruct (Nat.eqb_spec r k); [congruence|].
  apply (Am i Hi). unfold amplitude. transitivity (sqrt 0); [f_equal|apply sqrt_0].
  assert (Pp : 0 < (INR (2 * h) / 2) ^ 2) by (apply pow_lt; pose proof (lt_0_INR (2 * h) ltac:(lia)); lra).
  assert (Q : 0 <= a i ^ 2 + b i ^ 2) by (pose proof (Rle_0_sqr (a i)); pose proof (Rle_0_sqr (b i)); unfold Rsqr in *; lra). nra.
Qed.
Print Assumptions C68_wave_refuted.
Theorem C68_empty_range : forall nr nc f g smooth kmin kmax, shaped nr nc f -> (0 < nr)%nat -> (Nat.min kmax (nc / 2) < kmin)%nat ->
  dominant_wavenumber_fourier f g smooth kmin kmax = Err ValueError.
Proof.
  intros nr nc f g smooth kmin kmax [L F] Nr K. subst nr. destruct f as [|x f]; [cbn in Nr; lia|]. inversion F as [|? ? Lx Ff]; subst.
  unfold dominant_wavenumber_fourier. cbn [res_map]. destruct x as [|y x]; [reflexivity|]. rewrite power_form by discriminate. cbn [bind]. rewrite py_slice_tab.
  replace (Nat.min _ _) with 0%nat by lia. reflexivity.
Qed.
Print Assumptions C68_empty_range.
Example C68_nonvacuous : (0 < 2 < 4)%nat /\ in_range 1 20 2 /\ amplitude 3 4 <> 0 /\ INR 2 - INR 1 <> INR 2
  /\ shaped 1 4 [[3; 1; 4; 2]] /\ wave_power [3; 1; 4; 2] 0 = 100 /\ wave_power [3; 1; 4; 2] 1 = 2.
Proof.
  unfold in_range. split; [lia|]. split; [lia|]. split; [rewrite (proj1 (proj2 (proj2 (proj2 C67_nonvacuous)))); lra|]. split; [cbn; lra|].
  split; [split; [reflexivity|repeat constructor]|]. destruct quarter_turns as [[c0 s0] [[c1 s1] [[c2 s2] [c3 s3]]]]. unfold angle in *.
  unfold wave_power, cos_coeff, sin_coeff. change (length [3; 1; 4; 2]) with 4%nat. unfold tab. cbn [seq map Rsum fold_right nth]. split.
  - cbn [INR]. unfold Rdiv. rewrite !Rmult_0_l, !Rmult_0_r, !Rmult_0_l, cos_0, sin_0. lra.
  - rewrite c0, c1, c2, c3, s0, s1, s2, s3. lra.
Qed.
