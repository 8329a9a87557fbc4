(** C128: power of zonal waves. *)
From Coq Require Export String.
From Verif Require Import Base Spec_Fourier Spec_Parseval Model_Grid Model_Fourier Proofs_Base Proofs_Grid Proofs_StateList Proofs_Plot Proofs_Trig Proofs_Filter Proofs_Fourier Props_Fourier.
From Verif Require Import Model_Region.
From Coq Require Import List Lia Lra.
Open Scope R_scope.

Section Even.
Variable h : nat.
Hypothesis H1 : (1 <= h)%nat.
Let n := (2 * h)%nat.
Let A := A h. Let B := B h. Let synth := synth h.
Lemma pn : 0 < INR n. Proof. apply lt_0_INR. unfold n. lia. Qed.
Definition pair_sum (q f g : nat -> R) : R := Rsum (tab (h + 1) (fun k => q k * cfac h k / INR n * (A f k * A g k + B f k * B g k))).
Lemma adj q f g : Rsum (tab n (fun j => synth q f j * g j)) = pair_sum q f g.
Proof.
  unfold pair_sum, synth, Proofs_Fourier.synth. 
  rewrite (tab_ext n _ (fun j => Rsum (tab (h + 1) (fun k => wave h (q k * cfac h k / INR n * A f k) (q k * cfac h k / INR n * B f k) k j * g j)))) by (intros; now rewrite Rsum_tab_scal_r).
  rewrite Rsum_tab_swap. f_equal. apply tab_ext. intros k _.
  transitivity (q k * cfac h k / INR n * A f k * A g k + q k * cfac h k / INR n * B f k * B g k); [|ring].
  change (A g k) with (Rsum (tab n (fun j => g j * cos (angle (2 * h) k j)))). change (B g k) with (Rsum (tab n (fun j => g j * sin (angle (2 * h) k j)))).
  rewrite <- !Rsum_tab_scal, <- Rsum_tab_plus. f_equal. apply tab_ext. intros j _. unfold wave. ring.
Qed.
Lemma pair_sum_sym q f g : pair_sum q f g = pair_sum q g f.
Proof. unfold pair_sum. f_equal. apply tab_ext. intros; ring. Qed.
Lemma parseval f g : Rsum (tab n (fun j => f j * g j)) = pair_sum (fun _ => 1) f g.
Proof. rewrite <- adj. f_equal. apply tab_ext. intros j Hj. unfold synth. now rewrite (synth_all h H1 f j Hj). Qed.
Lemma pair_synth p q f g : pair_sum p (synth q f) g = pair_sum (fun k => p k * q k) f g.
Proof. unfold pair_sum. f_equal. apply tab_ext. intros k Hk. unfold A, B, synth. rewrite A_synth, B_synth by (try assumption; lia). unfold Rdiv; ring. Qed.
Lemma pair_ext p q f g : (forall k, (k <= h)%nat -> p k = q k) -> pair_sum p f g = pair_sum q f g.
Proof. intros E. unfold pair_sum. f_equal. apply tab_ext. intros k Hk. now rewrite E by lia. Qed.
Lemma inside_sq a b k : inside a b k * inside a b k = inside a b k.
Proof. unfold inside. destruct (_ || _); ring. Qed.
Lemma inside_range a b k : inside a b k = if Nat.leb a k && Nat.leb k b then 1 else 0.
Proof. unfold inside. destruct (Nat.ltb_spec k a), (Nat.leb_spec (b + 1) k), (Nat.leb_spec a k), (Nat.leb_spec k b); cbn; lia || reflexivity. Qed.
Lemma weight_cfac k : weight n k = cfac h k.
Proof. unfold weight, cfac, edge, n. destruct (Nat.eqb_spec k 0), (Nat.eqb_spec (2 * k) (2 * h)), (Nat.eqb_spec k h); cbn; lia || reflexivity. Qed.
Lemma pair_range kmin kmax x : length x = n -> pair_sum (inside kmin kmax) (fn x) (fn x) = sum_range n kmin kmax (fun k => weight n k * wave_power x k / INR n).
Proof.
  intros L. unfold pair_sum, sum_range. replace (n / 2)%nat with h by (unfold n; rewrite half_n; auto). f_equal. apply tab_ext. intros k _.
  rewrite inside_range, weight_cfac. destruct (coeff_fn h x k L) as [E1 E2]. unfold wave_power. rewrite E1, E2. fold A B. pose proof pn. destruct (_ && _); field; lra.
Qed.
End Even.

Lemma half_double h : (2 * h / 2 = h)%nat.
Proof. rewrite Nat.mul_comm. apply Nat.div_mul. lia. Qed.
(** rows of the restricted field *)
Lemma restrict_rows h nr f kmin kmax out : (1 <= h)%nat -> shaped nr (2 * h) f -> restrict_fourier_zonal f kmin kmax = Ok out ->
  forall i, (i < nr)%nat -> length (nth i f []) = (2 * h)%nat /\ nth i out [] = tab (2 * h) (synth h (inside kmin kmax) (fn (nth i f []))).
Proof.
  intros H1 S E i Hi. rewrite (restrict_field h nr) in E by assumption. apply Ok_inj in E. subst out. split.
  - destruct S as [L F]. rewrite Forall_forall in F. apply F. apply nth_In. lia.
  - unfold mat_of. now rewrite tab_nth.
Qed.
Lemma dot_tab h F x : (dot (tab (2 * h) F) x = Rsum (tab (2 * h) (fun j => F j * fn x j)))%R.
Proof. unfold dot. rewrite tab_length. f_equal. apply tab_ext. intros j Hj. now rewrite tab_nth by exact Hj. Qed.

(** the sum of squares along a latitude is the weighted sum of the powers of all wavenumbers *)
Theorem C128_total : forall h x, (1 <= h)%nat -> length x = (2 * h)%nat ->
  dot x x = sum_range (2 * h) 0 h (fun k => weight (2 * h) k * wave_power x k / INR (2 * h)).
Proof.
  intros h x H1 L. rewrite <- (pair_range h H1 0 h x L). unfold dot. rewrite L. change (Rsum (tab (2 * h) (fun j => nth j x 0 * nth j x 0))) with (Rsum (tab (2 * h) (fun j => fn x j * fn x j))).
  rewrite (parseval h H1). apply (pair_ext h H1). intros k Hk. symmetry. apply inside_in. unfold in_range. lia.
Qed.
Print Assumptions C128_total.

(** restriction keeps the power of the wavenumbers in the range *)
Theorem C128_power : forall h nr f kmin kmax out, (1 <= h)%nat -> shaped nr (2 * h) f -> restrict_fourier_zonal f kmin kmax = Ok out ->
  forall i, (i < nr)%nat -> let x := nth i f [] in let y := nth i out [] in
  dot y y = sum_range (2 * h) kmin kmax (fun k => weight (2 * h) k * wave_power x k / INR (2 * h)).
Proof.
  intros h nr f kmin kmax out H1 S E i Hi x y. destruct (restrict_rows h nr f kmin kmax out H1 S E i Hi) as [L Ey]. fold x in L, Ey. fold y in Ey.
  rewrite Ey, dot_tab. rewrite (tab_ext _ _ (fun j => synth h (inside kmin kmax) (fn x) j * synth h (inside kmin kmax) (fn x) j)) by (intros j Hj; unfold fn at 2; now rewrite tab_nth by exact Hj).
  rewrite adj, (pair_sum_sym h), (pair_synth h H1), <- (pair_range h H1) by assumption. apply (pair_ext h H1). intros k _. apply inside_sq.
Qed.
Print Assumptions C128_power.

(** the restricted field is the orthogonal projection onto the waves in the range: it and
    the rest share the sum of squares *)
Theorem C128_pythagoras : forall h nr f kmin kmax out, (1 <= h)%nat -> shaped nr (2 * h) f -> restrict_fourier_zonal f kmin kmax = Ok out ->
  forall i, (i < nr)%nat -> let x := nth i f [] in let y := nth i out [] in
  dot x x = dot y y + distance2 x y /\ dot y y <= dot x x.
Proof.
  intros h nr f kmin kmax out H1 S E i Hi x y. destruct (restrict_rows h nr f kmin kmax out H1 S E i Hi) as [L Ey]. fold x in L, Ey. fold y in Ey.
  assert (Dxy : dot y x = dot y y).
  { rewrite Ey, !dot_tab. rewrite (tab_ext _ (fun j => _ * fn (tab _ _) j) (fun j => synth h (inside kmin kmax) (fn x) j * synth h (inside kmin kmax) (fn x) j)) by (intros j Hj; unfold fn at 2; now rewrite tab_nth by exact Hj).
    rewrite !adj, (pair_sum_sym h _ _ (synth _ _ _)), (pair_synth h H1). apply (pair_ext h H1). intros k _. now rewrite inside_sq. }
  assert (Ly : length y = (2 * h)%nat) by (rewrite Ey; apply tab_length).
  assert (D : distance2 x y = dot x x - 2 * dot y x + dot y y).
  { unfold distance2, dot. rewrite L, Ly. unfold Rminus. rewrite <- (Rmult_1_l (Rsum (tab (2 * h) (fun j => nth j x 0 * nth j x 0)))).
    rewrite Ropp_mult_distr_l, <- !Rsum_tab_scal, <- !Rsum_tab_plus. f_equal. apply tab_ext. intros; ring. }
  split; [rewrite D, Dxy; ring|]. assert (0 <= distance2 x y).
  { unfold distance2. apply Rsum_nonneg, Forall_forall. intros v Hv. apply tab_in in Hv. destruct Hv as (j & _ & ->). apply pow2_ge_0. }
  rewrite D, Dxy in H. lra.
Qed.
Print Assumptions C128_pythagoras.

(** ... hence the closest of all fields that consist of such waves *)
Theorem C128_closest : forall h nr f kmin kmax out, (1 <= h)%nat -> shaped nr (2 * h) f -> restrict_fourier_zonal f kmin kmax = Ok out ->
  forall i, (i < nr)%nat -> let x := nth i f [] in let y := nth i out [] in
  only_waves kmin kmax y /\ forall w, length w = (2 * h)%nat -> only_waves kmin kmax w -> distance2 x w = distance2 x y + distance2 y w.
Proof.
  intros h nr f kmin kmax out H1 S E i Hi x y. destruct (restrict_rows h nr f kmin kmax out H1 S E i Hi) as [L Ey]. fold x in L, Ey. fold y in Ey.
  assert (Ly : length y = (2 * h)%nat) by (rewrite Ey; apply tab_length). split.
  - intros k Hk O. rewrite Ly in Hk. replace (2 * h / 2)%nat with h in Hk by (symmetry; apply half_double). destruct (coeff_fn h y k Ly) as [-> ->]. rewrite Ey.
    rewrite (A_ext h _ (synth h (inside kmin kmax) (fn x))), (B_ext h _ (synth h (inside kmin kmax) (fn x))) by (intros j Hj; unfold fn at 1; now rewrite tab_nth by exact Hj).
    rewrite A_synth, B_synth, inside_out by assumption. lra.
  - intros w Lw Ow.
    assert (W : forall j, (j < 2 * h)%nat -> synth h (inside kmin kmax) (fn w) j = fn w j).
    { intros j Hj. rewrite <- (synth_all h H1 (fn w) j Hj). unfold synth. f_equal. apply tab_ext. intros k Hk.
      destruct (Nat.leb_spec kmin k) as [P|P]; [destruct (Nat.leb_spec k kmax) as [Q|Q]|].
      - now rewrite inside_in by (unfold in_range; lia).
      - destruct (Ow k) as [E1 E2]; [rewrite Lw; replace (2 * h / 2)%nat with h by (symmetry; apply half_double); lia|unfold in_range; lia|].
        destruct (coeff_fn h w k Lw) as [C1 C2]. rewrite <- C1, <- C2, E1, E2. unfold wave. ring.
      - destruct (Ow k) as [E1 E2]; [rewrite Lw; replace (2 * h / 2)%nat with h by (symmetry; apply half_double); lia|unfold in_range; lia|].
        destruct (coeff_fn h w k Lw) as [C1 C2]. rewrite <- C1, <- C2, E1, E2. unfold wave. ring. }
    set (z := fun j => fn y j - fn w j).
    assert (O : Rsum (tab (2 * h) (fun j => (fn x j - fn y j) * z j)) = 0).
    { assert (Z : forall j, (j < 2 * h)%nat -> z j = synth h (inside kmin kmax) (fun j => 1 * fn x j + (-1) * fn w j) j).
      { intros j Hj. rewrite synth_lin, W by exact Hj. unfold z. rewrite Ey. unfold fn at 1. rewrite tab_nth by exact Hj. ring. }
      assert (Q : forall j, (j < 2 * h)%nat -> fn x j - fn y j = synth h (fun k => 1 - inside kmin kmax k) (fn x) j).
      { intros j Hj. rewrite Ey. unfold fn at 2. rewrite tab_nth by exact Hj. rewrite <- (synth_all h H1 (fn x) j Hj) at 1. unfold synth, Rminus.
        rewrite <- (Rmult_1_l (Rsum (tab (h + 1) (fun k => wave h (inside kmin kmax k * cfac h k / INR (2 * h) * A h (fn x) k) _ k j)))).
        rewrite Ropp_mult_distr_l, <- Rsum_tab_scal, <- Rsum_tab_plus. f_equal. apply tab_ext. intros k _. unfold wave, Rdiv. ring. }
      rewrite (tab_ext _ _ (fun j => synth h (fun k => 1 - inside kmin kmax k) (fn x) j * synth h (inside kmin kmax) (fun j => 1 * fn x j + (-1) * fn w j) j)) by (intros j Hj; now rewrite Q, Z by exact Hj).
      rewrite adj, pair_sum_sym, pair_synth by assumption. unfold pair_sum. apply Rsum_tab_zero. intros k Hk.
      pose proof (inside_sq kmin kmax k) as I. replace ((1 - inside kmin kmax k) * inside kmin kmax k) with 0 by (rewrite Rmult_minus_distr_r, I; ring). unfold Rdiv. ring. }
    unfold distance2. rewrite L, Ly. rewrite (tab_ext (2 * h) (fun j => (nth j x 0 - nth j w 0) ^ 2) (fun j => ((nth j x 0 - nth j y 0) ^ 2 + (nth j y 0 - nth j w 0) ^ 2) + 2 * ((fn x j - fn y j) * z j))) by (intros; unfold z, fn; ring).
    rewrite !Rsum_tab_plus, Rsum_tab_scal, O. ring.
Qed.
Print Assumptions C128_closest.

(** the envelope: over a circle its squares sum up to twice the squares of the waves *)
Theorem C128_envelope : forall h nr f kmin kmax out env, (1 <= h)%nat -> shaped nr (2 * h) f -> (1 <= kmin)%nat -> (kmax < h)%nat ->
  restrict_fourier_zonal f kmin kmax = Ok out -> envelope_hilbert f kmin kmax = Ok env ->
  forall i, (i < nr)%nat -> dot (nth i env []) (nth i env []) = 2 * dot (nth i out []) (nth i out []).
Proof.
  intros h nr f kmin kmax out env H1 S K1 K2 Eo Ee i Hi. destruct (restrict_rows h nr f kmin kmax out H1 S Eo i Hi) as [L Ey].
  rewrite (envelope_field h nr) in Ee by assumption. apply Ok_inj in Ee. subst env. set (y := nth i out []) in *. set (x := nth i f []) in *.
  assert (Ly : length y = (2 * h)%nat) by (rewrite Ey; apply tab_length). pose proof (pn h H1) as P.
  set (H := fun j => Rsum (tab (h + 1) (fun k => wave h (- (cfac h k / INR (2 * h) * B h (fn y) k)) (cfac h k / INR (2 * h) * A h (fn y) k) k j))).
  assert (AE : forall k, (k <= h)%nat -> ~ in_range kmin kmax k -> A h (fn y) k = 0 /\ B h (fn y) k = 0).
  { intros k Hk O. rewrite Ey. rewrite (A_ext h _ (synth h (inside kmin kmax) (fn x))), (B_ext h _ (synth h (inside kmin kmax) (fn x))) by (intros j Hj; unfold fn at 1; now rewrite tab_nth by exact Hj).
    rewrite A_synth, B_synth, inside_out by assumption. lra. }
  assert (NE : forall k, in_range kmin kmax k -> edge h k = false).
  { intros k [R1 R2]. unfold edge. destruct (Nat.eqb_spec k 0), (Nat.eqb_spec k h); lia || reflexivity. }
  assert (Dec : forall k, in_range kmin kmax k \/ ~ in_range kmin kmax k) by (intros k; unfold in_range; lia).
  assert (HA : forall k, (k <= h)%nat -> A h H k = - B h (fn y) k).
  { intros k Hk. unfold H. rewrite A_sum. rewrite (Rsum_tab_one _ _ k) by first [lia | intros j Hj Ne; rewrite A_wave by (try assumption; lia); destruct (Nat.eqb_spec k j); [congruence|reflexivity]].
    rewrite A_wave, Nat.eqb_refl by assumption. pose proof (cfac_cnorm h k) as C.
    replace (- (cfac h k / INR (2 * h) * B h (fn y) k) * cnorm h k) with (- ((cfac h k * cnorm h k) / INR (2 * h) * B h (fn y) k)) by (field; lra). rewrite C. field. lra. }
  assert (HB : forall k, (k <= h)%nat -> B h H k = A h (fn y) k).
  { intros k Hk. unfold H. rewrite B_sum. rewrite (Rsum_tab_one _ _ k) by first [lia | intros j Hj Ne; rewrite B_wave by (try assumption; lia); destruct (Nat.eqb_spec k j); [congruence|reflexivity]].
    rewrite B_wave, Nat.eqb_refl by assumption. destruct (Dec k) as [R|R].
    - unfold cfac, snorm. rewrite (NE k R). field. lra.
    - destruct (AE k Hk R) as [-> _]. ring. }
  unfold mat_of. rewrite tab_nth by exact Hi. rewrite dot_tab.
  rewrite (tab_ext _ _ (fun j => fn y j * fn y j + H j * H j)).
  - rewrite Rsum_tab_plus, !(parseval h H1). unfold dot. rewrite Ly. change (Rsum (tab (2 * h) (fun j => nth j y 0 * nth j y 0))) with (Rsum (tab (2 * h) (fun j => fn y j * fn y j))). rewrite (parseval h H1).
    replace (pair_sum h (fun _ => 1) H H) with (pair_sum h (fun _ => 1) (fn y) (fn y)); [ring|]. unfold pair_sum. f_equal. apply tab_ext. intros k Hk. rewrite HA, HB by lia. ring.
  - intros j Hj. unfold fn at 2. rewrite tab_nth by exact Hj. change (nth i f []) with x. rewrite <- Ey. rewrite (hilbert_form h H1) by assumption. unfold cabs. cbn [fst snd].
    replace (Rsum (tab (h + 1) (fun k => cfac h k / INR (2 * h) * (A h (fn y) k * sin (angle (2 * h) k j) - B h (fn y) k * cos (angle (2 * h) k j))))) with (H j).
    + rewrite sqrt_sqrt; [ring|]. pose proof (pow2_ge_0 (fn y j)). pose proof (pow2_ge_0 (H j)). lra.
    + unfold H. f_equal. apply tab_ext. intros k _. unfold wave. ring.
Qed.
Print Assumptions C128_envelope.
Example C128_nonvacuous : exists out env, restrict_fourier_zonal (mat_of 2 6 (fun i => zonal_wave 6 1 (INR i) 2)) 1 2 = Ok out
  /\ envelope_hilbert (mat_of 2 6 (fun i => zonal_wave 6 1 (INR i) 2)) 1 2 = Ok env
  /\ dot (nth 1 env []) (nth 1 env []) = 2 * dot (nth 1 out []) (nth 1 out []) /\ dot (nth 1 out []) (nth 1 out []) = 15.
Proof.
  assert (S : shaped 2 (2 * 3) (mat_of 2 6 (fun i => zonal_wave 6 1 (INR i) 2))) by apply shaped_mat_of.
  pose proof (C66_inside 3 2 1 2 INR (fun _ => 2) (fun _ => 1%nat) ltac:(lia) ltac:(intros; unfold in_range; lia)) as E.
  pose proof (C67_inside_partial 3 2 1 2 INR (fun _ => 2) (fun _ => 1%nat) ltac:(lia) ltac:(intros; unfold in_range; split; [lia|left; lia])) as E'.
  cbv beta in E, E'. do 2 eexists. split; [exact E|]. split; [exact E'|].
  pose proof (C128_envelope 3 2 _ 1 2 _ _ ltac:(lia) S ltac:(lia) ltac:(lia) E E' 1%nat ltac:(lia)) as V. split; [exact V|].
  assert (W : dot (nth 1 (mat_of 2 (2 * 3) (fun i _ => amplitude (INR i) 2)) []) (nth 1 (mat_of 2 (2 * 3) (fun i _ => amplitude (INR i) 2)) []) = 30).
  { cbv [dot mat_of tab map seq nth length Rsum fold_right Nat.mul Nat.add]. unfold amplitude. rewrite sqrt_sqrt by (cbn [INR]; lra). cbn [INR]. lra. }
  rewrite W in V. lra.
Qed.

(** ** Scaling *)
Lemma times_shaped c nr nc f : shaped nr nc f -> shaped nr nc (times c f).
Proof.
  intros [L F]. split; [unfold times; now rewrite map_length|]. unfold times. rewrite Forall_map. eapply Forall_impl; [|exact F]. intros r Hr. now rewrite map_length.
Qed.
Lemma times_fn c f i j : fn (nth i (times c f) []) j = c * fn (nth i f []) j.
Proof.
  unfold fn, times. change (@nil R) with (map (Rmult c) []) at 1. rewrite map_nth. replace 0 with (c * 0) at 1 by ring. apply (map_nth (Rmult c)).
Qed.
Lemma times_mat c nr nc F : times c (mat_of nr nc F) = mat_of nr nc (fun i j => c * F i j).
Proof. unfold times, mat_of. rewrite tab_map. apply tab_ext. intros i _. now rewrite tab_map. Qed.
Lemma synth_times h q c f j : synth h q (fun i => c * f i) j = c * synth h q f j.
Proof. transitivity (synth h q (fun i => c * f i + 0 * f i) j); [apply synth_ext; intros; ring|]. rewrite synth_lin. ring. Qed.

(** waves and envelope are proportional to the field; the dominant wavenumber does not
    depend on the unit of the field *)
Theorem C128_scale : forall h nr f kmin kmax out env c, (1 <= h)%nat -> shaped nr (2 * h) f ->
  restrict_fourier_zonal f kmin kmax = Ok out -> envelope_hilbert f kmin kmax = Ok env ->
  restrict_fourier_zonal (times c f) kmin kmax = Ok (times c out) /\ envelope_hilbert (times c f) kmin kmax = Ok (times (Rabs c) env).
Proof.
  intros h nr f kmin kmax out env c H1 S Eo Ee.
  rewrite (restrict_field h nr) in * by auto using times_shaped. rewrite (envelope_field h nr) in * by auto using times_shaped. apply Ok_inj in Eo, Ee. subst out env. split.
  - f_equal. rewrite times_mat. apply mat_of_ext. intros i j Hi Hj. rewrite <- synth_times. apply synth_ext. intros k _. apply times_fn.
  - f_equal. rewrite times_mat. apply mat_of_ext. intros i j Hi Hj. set (y := tab (2 * h) (synth h (inside kmin kmax) (fn (nth i f [])))).
    replace (tab (2 * h) (synth h (inside kmin kmax) (fn (nth i (times c f) [])))) with (map (Rmult c) y).
    + assert (Ly : length y = (2 * h)%nat) by apply tab_length. rewrite !(hilbert_form h H1) by (rewrite ?map_length; assumption). unfold cabs. cbn [fst snd].
      assert (Y : forall l, fn (map (Rmult c) y) l = c * fn y l). { intros l. unfold fn. replace 0 with (c * 0) at 1 by ring. apply (map_nth (Rmult c)). }
      assert (EA : forall k, A h (fn (map (Rmult c) y)) k = c * A h (fn y) k). { intros k. unfold A. rewrite <- Rsum_tab_scal. f_equal. apply tab_ext. intros l _. rewrite Y. ring. }
      assert (EB : forall k, B h (fn (map (Rmult c) y)) k = c * B h (fn y) k). { intros k. unfold B. rewrite <- Rsum_tab_scal. f_equal. apply tab_ext. intros l _. rewrite Y. ring. }
      rewrite Y. rewrite (tab_ext _ _ (fun k => c * (cfac h k / INR (2 * h) * (A h (fn y) k * sin (angle (2 * h) k j) - B h (fn y) k * cos (angle (2 * h) k j))))) by (intros k _; rewrite EA, EB; ring).
      rewrite Rsum_tab_scal. rewrite <- (sqrt_Rsqr_abs c). rewrite <- sqrt_mult_alt by apply Rle_0_sqr. f_equal. unfold Rsqr. ring.
    + unfold y. rewrite tab_map. apply tab_ext. intros k _. rewrite <- synth_times. apply synth_ext. intros l _. symmetry. apply times_fn.
Qed.
Print Assumptions C128_scale.
Lemma argmax_from_scale c l : 0 < c -> forall best b i, argmax_from (c * best) b i (map (Rmult c) l) = argmax_from best b i l.
Proof.
  intros Hc. induction l as [|x l IH]; intros best b i; [reflexivity|]. cbn [map argmax_from].
  assert (Rltb (c * best) (c * x) = Rltb best x) as ->.
  { destruct (Rltb best x) eqn:E; [apply Rltb_true in E; apply Rltb_true|apply Rltb_false in E; apply Rltb_false]; nra. }
  destruct (Rltb best x); apply IH.
Qed.
Lemma argmax_scale c l : 0 < c -> argmax (map (Rmult c) l) = argmax l.
Proof. intros Hc. destruct l as [|x l]; [reflexivity|]. cbn [map argmax]. f_equal. now apply argmax_from_scale. Qed.
Lemma power_scale c x p : power x = Ok p -> power (map (Rmult c) x) = Ok (map (Rmult (c ^ 2)) p).
Proof.
  intros E. destruct x as [|a x]; [discriminate|]. rewrite power_form in * by discriminate. apply Ok_inj in E. subst p. rewrite map_length. f_equal. rewrite tab_map. apply tab_ext. intros k _.
  unfold wave_power. assert (Y : forall l, nth l (map (Rmult c) (a :: x)) 0 = c * nth l (a :: x) 0). { intros l. replace 0 with (c * 0) at 1 by ring. apply (map_nth (Rmult c)). }
  assert (cos_coeff (map (Rmult c) (a :: x)) k = c * cos_coeff (a :: x) k) as ->.
  { unfold cos_coeff. rewrite map_length, <- Rsum_tab_scal. f_equal. apply tab_ext. intros l _. rewrite Y. ring. }
  assert (sin_coeff (map (Rmult c) (a :: x)) k = c * sin_coeff (a :: x) k) as ->.
  { unfold sin_coeff. rewrite map_length, <- Rsum_tab_scal. f_equal. apply tab_ext. intros l _. rewrite Y. ring. }
  ring.
Qed.
Theorem C128_dominant : forall f g smooth kmin kmax c, c <> 0 ->
  dominant_wavenumber_fourier (times c f) g smooth kmin kmax = dominant_wavenumber_fourier f g smooth kmin kmax.
Proof.
  intros f g smooth kmin kmax c Hc. unfold dominant_wavenumber_fourier.
  assert (E : res_map (fun x => do p <- power x; do k <- argmax (py_slice p kmin (kmax + 1)); Ok (INR k)) (times c f)
            = res_map (fun x => do p <- power x; do k <- argmax (py_slice p kmin (kmax + 1)); Ok (INR k)) f); [|now rewrite E].
  unfold times. induction f as [|x f IH]; [reflexivity|]. cbn [map res_map]. 
  assert (R : (do p <- power (map (Rmult c) x); do k <- argmax (py_slice p kmin (kmax + 1)); Ok (INR k)) = (do p <- power x; do k <- argmax (py_slice p kmin (kmax + 1)); Ok (INR k))).
  { destruct (power x) as [p|ex] eqn:P.
    - rewrite (power_scale c x p P). cbn [bind]. unfold py_slice. rewrite skipn_map, firstn_map, argmax_scale; [reflexivity|]. pose proof (Rsqr_pos_lt c Hc) as Q. unfold Rsqr in Q. cbn [pow]. lra.
    - destruct x as [|a x]; [injection P as <-; reflexivity|]. rewrite power_form in P by discriminate. discriminate. }
  rewrite R. destruct (do p <- power x; _) as [v|ex]; [|reflexivity]. cbn [bind]. rewrite IH. reflexivity.
Qed.
Print Assumptions C128_dominant.
