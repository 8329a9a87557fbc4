(** Vector calculus and gridded operators with exact transforms. *)
From Coq Require Export String.
From Verif Require Import Base Model_Grid Model_Time Model_Spectral Model_State Spec_Grid Spec_Spectral Spec_State Spec_Instance Spec_Calculus.
From Verif Require Import Proofs_Base Proofs_Grid Proofs_Spectral Proofs_Instance Proofs_State.
From Coquelicot Require Import Coquelicot.
From Coq Require Import List Lia Lra.
Open Scope R_scope.

Section Calc.
Context (res rs om : R) (nto : option Z) (g : grid) (T : sphfam).
Hypothesis Hg : mk_grid res rs om nto = Ok g.
Hypothesis H : exact_on T g.
Hypothesis HC : calculus_on T g.
Notation nr := (g_nlat g).
Notation nc := (g_nlon g).
Notation nt := (g_ntrunc g).
Notation N := (nspec (g_ntrunc g)).
Notation A := (to_spectral T g).
Notation B := (to_grid T g).
Notation gshaped := (shaped nr nc).
Notation ev k := (eigenvalue (g_rsphere g) (degree (g_ntrunc g) k)).
Notation zeros := (repeat (RtoC 0) N).

Lemma calc_rs : 0 < g_rsphere g.
Proof. pose proof (mk_grid_facts _ _ _ _ _ Hg) as F. rewrite (gf_rs _ _ _ _ F). exact (gf_rs_pos _ _ _ _ F). Qed.
Lemma calc_rs_ne : g_rsphere g <> 0. Proof. pose proof calc_rs. lra. Qed.

Lemma mult_res x y w : length x = N -> length y = N -> A (B x) = x ->
  (forall k, (k < N)%nat -> coef y k = (RtoC (w (degree nt k)) * coef x k)%C) -> A (B y) = y.
Proof. intros Hx Hy Rx E. exact (ec_multiplier _ _ _ _ _ HC x y w Hx Hy Rx E). Qed.

Lemma laplace_res x : length x = N -> A (B x) = x -> A (B (laplace_spectral g x)) = laplace_spectral g x.
Proof.
  intros Hx Rx. apply (mult_res x _ (fun n => - eigenvalue (g_rsphere g) n) Hx); auto using laplace_length.
  intros k Hk. rewrite laplace_coef by (auto using calc_rs_ne). reflexivity.
Qed.
Lemma poisson_res x p : length x = N -> A (B x) = x ->
  (forall n, (0 < n <= nt)%nat -> eigenvalue (g_rsphere g) n + p <> 0) ->
  A (B (solve_poisson_spectral g x p)) = solve_poisson_spectral g x p.
Proof.
  intros Hx Rx Hp.
  apply (mult_res x _ (fun n => if Nat.eqb n 0 then 0 else - / (eigenvalue (g_rsphere g) n + p)) Hx); auto using poisson_length.
  intros k Hk. destruct (Nat.eq_dec k 0) as [->|Hk0].
  - rewrite poisson_coef0, degree_0. cbn [Nat.eqb]. ring.
  - assert (D : (0 < degree nt k)%nat) by (apply degree_pos; lia).
    destruct (Nat.eqb_spec (degree nt k) 0); [lia|]. rewrite poisson_coef by (auto using calc_rs_ne; lia).
    assert (D' : (degree nt k <= nt)%nat).
    { assert (Q : forall len m j, (m + len = S nt)%nat -> (degree_from m len j <= nt)%nat).
      { induction len as [|len IH]; intros m j Hm; [cbn; lia|]. cbn [degree_from].
        destruct (Nat.ltb_spec j (S len)); [lia|]. apply IH. lia. }
      apply Q. lia. }
    assert (E : ev k + p <> 0) by (apply Hp; lia). rewrite RtoC_opp, RtoC_inv by auto. unfold Cdiv. ring.
Qed.
Lemma diffusion_res x c d o : length x = N -> A (B x) = x -> 0 <= d * c ->
  A (B (solve_diffusion_spectral g x c d o)) = solve_diffusion_spectral g x c d o.
Proof.
  intros Hx Rx Hd.
  apply (mult_res x _ (fun n => / (1 + d * c * eigenvalue (g_rsphere g) n ^ o)) Hx); auto using diffusion_length.
  intros k Hk. rewrite diffusion_coef by (auto using calc_rs_ne).
  assert (0 <= ev k ^ o) by (apply pow_le, eigenvalue_nonneg, calc_rs).
  pose proof (Rmult_le_pos _ _ Hd H0). rewrite RtoC_inv by lra. unfold Cdiv. ring.
Qed.

(** gridded operators have the spectra of the spectral ones *)
Lemma A_laplace f : gshaped f -> A (laplace T g f) = laplace_spectral g (A f).
Proof. intros Hf. unfold laplace. apply laplace_res; [apply (A_len T g H)|now apply A_resolved]. Qed.
Lemma A_poisson f p : gshaped f -> (forall n, (0 < n <= nt)%nat -> eigenvalue (g_rsphere g) n + p <> 0) ->
  A (solve_poisson T g f p) = solve_poisson_spectral g (A f) p.
Proof. intros Hf Hp. unfold solve_poisson. apply poisson_res; auto; [apply (A_len T g H)|now apply A_resolved]. Qed.
Lemma A_diffusion f c d o : gshaped f -> 0 <= d * c ->
  A (solve_diffusion T g f c d o) = solve_diffusion_spectral g (A f) c d o.
Proof. intros Hf Hp. unfold solve_diffusion. apply diffusion_res; auto; [apply (A_len T g H)|now apply A_resolved]. Qed.
Lemma ev_ne n : (0 < n <= nt)%nat -> eigenvalue (g_rsphere g) n + 0 <> 0.
Proof. intros Hn. pose proof (eigenvalue_pos _ n calc_rs (proj1 Hn)). lra. Qed.

Lemma poisson_gridded f : gshaped f ->
  mean_removed N (A f) (A (laplace T g (solve_poisson T g f 0)))
  /\ mean_removed N (A f) (A (solve_poisson T g (laplace T g f) 0))
  /\ laplace T g (solve_poisson T g f 0) = solve_poisson T g (laplace T g f) 0.
Proof.
  intros Hf. pose proof (A_len T g H f) as L. pose proof (poisson_inverts _ _ _ _ _ Hg (A f) L) as [[L1 [M1 E1]] [[L2 [M2 E2]] _]].
  assert (Q1 : A (laplace T g (solve_poisson T g f 0)) = laplace_spectral g (solve_poisson_spectral g (A f) 0)).
  { rewrite A_laplace by apply (B_shape T g H). rewrite A_poisson; auto using ev_ne. }
  assert (Q2 : A (solve_poisson T g (laplace T g f) 0) = solve_poisson_spectral g (laplace_spectral g (A f)) 0).
  { rewrite A_poisson; auto using ev_ne; [|apply (B_shape T g H)]. now rewrite A_laplace. }
  rewrite Q1, Q2. split; [|split].
  - split; auto. intros k Hk. destruct (Nat.eqb_spec k 0) as [->|]; auto. apply E1. lia.
  - split; auto. intros k Hk. destruct (Nat.eqb_spec k 0) as [->|]; auto. apply E2. lia.
  - unfold laplace at 1. unfold solve_poisson at 2. rewrite A_poisson, A_laplace by (auto using ev_ne).
    apply f_equal, spec_ext; [congruence|]. rewrite L1. intros k Hk. destruct (Nat.eq_dec k 0) as [->|]; [congruence|].
    rewrite E1, E2 by lia. reflexivity.
Qed.

(** winds *)
Lemma rep_as fld x : represents T g fld x -> as_spectral T g fld = x /\ length x = N /\ A (B x) = x.
Proof. intros [y Ly Ry|y Ly Ry]; (split; [|split]; auto). Qed.

Lemma uv_lin a b x y x' y' : length x = N -> length y = N -> length x' = N -> length y' = N ->
  let w := sh_getuv (sph T g) (sadd (sscale a x) (sscale b x')) (sadd (sscale a y) (sscale b y')) in
  fst w = madd (mscale a (fst (sh_getuv (sph T g) x y))) (mscale b (fst (sh_getuv (sph T g) x' y')))
  /\ snd w = madd (mscale a (snd (sh_getuv (sph T g) x y))) (mscale b (snd (sh_getuv (sph T g) x' y'))).
Proof. apply (et_wind_linear _ _ _ _ H). Qed.
Lemma mpart_split c d : mpart g c = sadd (sscale 1 (mpart g c)) (sscale d zeros).
Proof.
  apply spec_ext; [rewrite sadd_length; rewrite ?sscale_length, ?mpart_len, ?repeat_length; auto|].
  rewrite mpart_len. intros k Hk. rewrite coef_sadd by (rewrite ?sscale_length, ?mpart_len, ?repeat_length; auto).
  rewrite !coef_sscale by (rewrite ?mpart_len, ?repeat_length; auto). rewrite coef_zero. ring.
Qed.
Lemma zeros_split c : zeros = sadd (sscale 0 zeros) (sscale c zeros).
Proof.
  apply spec_ext; [rewrite sadd_length; rewrite ?sscale_length, ?repeat_length; auto|].
  rewrite repeat_length. intros k Hk. rewrite coef_sadd by (rewrite ?sscale_length, ?repeat_length; auto).
  rewrite !coef_sscale by (rewrite ?repeat_length; lia). rewrite coef_zero. ring.
Qed.
Notation Z0 := (mat_of nr nc (fun _ _ => 0)).
Lemma uv_const c d : sh_getuv (sph T g) (mpart g c) (mpart g d) = (Z0, Z0).
Proof.
  destruct (uv_lin 1 1 (mpart g c) zeros zeros (mpart g d)) as [E1 E2]; rewrite ?mpart_len, ?repeat_length; auto.
  assert (P1 : sadd (sscale 1 (mpart g c)) (sscale 1 zeros) = mpart g c) by (symmetry; apply mpart_split).
  assert (P2 : sadd (sscale 1 zeros) (sscale 1 (mpart g d)) = mpart g d).
  { apply spec_ext; [rewrite sadd_length; rewrite ?sscale_length, ?mpart_len, ?repeat_length; auto|].
    rewrite sadd_length by (rewrite ?sscale_length, ?mpart_len, ?repeat_length; auto). rewrite sscale_length, repeat_length.
    intros k Hk. rewrite coef_sadd by (rewrite ?sscale_length, ?mpart_len, ?repeat_length; auto).
    rewrite !coef_sscale by (rewrite ?mpart_len, ?repeat_length; auto). rewrite coef_zero. ring. }
  rewrite P1, P2 in E1, E2. change (mpart g c) with (RtoC c :: repeat (RtoC 0) (N - 1)) in E1, E2 |- *.
  change (mpart g d) with (RtoC d :: repeat (RtoC 0) (N - 1)) in E1, E2 |- *.
  rewrite (et_constant_wind _ _ _ _ H), (ec_constant_div _ _ _ _ _ HC) in E1, E2. cbn [fst snd] in E1, E2.
  assert (Q : madd (mscale 1 Z0) (mscale 1 Z0) = Z0).
  { apply (mat_ext nr nc); try apply shaped_mat_of.
    - apply shaped_madd; apply shaped_mscale, shaped_mat_of.
    - intros i j Hi Hj. rewrite (mget_madd nr nc) by (auto using shaped_mscale, shaped_mat_of).
      rewrite !(mget_mscale nr nc) by (auto using shaped_mat_of). rewrite mget_mat_of by auto. ring. }
  rewrite Q in E1, E2. destruct (sh_getuv _ _ _). cbn [fst snd] in E1, E2. congruence.
Qed.
Lemma uv_shape x y : gshaped (fst (sh_getuv (sph T g) x y)) /\ gshaped (snd (sh_getuv (sph T g) x y)).
Proof. apply (et_wind_shape _ _ _ _ H). Qed.
Lemma uv_mfree x y : length x = N -> length y = N ->
  sh_getuv (sph T g) (mfree g x) (mfree g y) = sh_getuv (sph T g) x y.
Proof.
  intros Hx Hy.
  destruct (uv_lin 1 (-1) x y (mpart g (Re (coef x 0))) (mpart g (Re (coef y 0)))) as [E1 E2]; rewrite ?mpart_len; auto.
  rewrite uv_const in E1, E2. change (sadd (sscale 1 x) (sscale (-1) (mpart g (Re (coef x 0))))) with (mfree g x) in *.
  change (sadd (sscale 1 y) (sscale (-1) (mpart g (Re (coef y 0))))) with (mfree g y) in *.
  pose proof (uv_shape x y) as [S1 S2]. cbn [fst snd] in E1, E2.
  rewrite (madd_zero g _ _ S1 eq_refl) in E1. rewrite (madd_zero g _ _ S2 eq_refl) in E2.
  destruct (sh_getuv _ (mfree g x) _), (sh_getuv _ x _). cbn [fst snd] in *. congruence.
Qed.
Lemma mfree_removed x : length x = N -> A (B x) = x -> mean_removed N x (mfree g x).
Proof.
  intros Hx Rx. split; [now apply mfree_len|]. intros k Hk. destruct (Nat.eqb_spec k 0) as [->|n].
  - now apply (mfree_0 T g H).
  - rewrite mfree_coef by auto. destruct (Nat.eqb_spec k 0); [lia|]. ring.
Qed.
Lemma removed_unique x y : length x = N -> A (B x) = x -> mean_removed N x y -> y = mfree g x.
Proof.
  intros Hx Rx [Ly Ey]. destruct (mfree_removed x Hx Rx) as [Lm Em]. apply spec_ext; [congruence|].
  intros k Hk. rewrite Ey, Em by lia. reflexivity.
Qed.

Lemma wind_inverts fz fd z d : represents T g fz z -> represents T g fd d ->
  let u := fst (wind T g fz fd) in let v := snd (wind T g fz fd) in
  gshaped u /\ gshaped v
  /\ mean_removed N z (vorticity_spectral T g u v) /\ mean_removed N d (divergence_spectral T g u v)
  /\ A (vorticity T g u v) = vorticity_spectral T g u v /\ A (divergence T g u v) = divergence_spectral T g u v.
Proof.
  intros Rz Rd. destruct (rep_as _ _ Rz) as [Ez [Lz Rz']]. destruct (rep_as _ _ Rd) as [Ed [Ld Rd']]. cbn zeta.
  unfold wind. rewrite Ez, Ed. pose proof (uv_shape z d) as [S1 S2]. split; auto. split; auto.
  rewrite <- (uv_mfree z d Lz Ld).
  pose proof (ec_helmholtz _ _ _ _ _ HC (mfree g z) (mfree g d) (mfree_len g z Lz) (mfree_len g d Ld)
    (mfree_resolved T g H z Lz Rz') (mfree_resolved T g H d Ld Rd') (mfree_0 T g H z Lz Rz') (mfree_0 T g H d Ld Rd')) as E.
  cbn zeta in E. unfold vorticity, divergence, vorticity_spectral, divergence_spectral, vorticity_divergence_spectral.
  rewrite E. cbn [fst snd]. split; [now apply mfree_removed|]. split; [now apply mfree_removed|].
  split; now apply (mfree_resolved T g H).
Qed.
Lemma wind_same fz fd fz' fd' z d : represents T g fz z -> represents T g fd d ->
  represents T g fz' z -> represents T g fd' d -> wind T g fz fd = wind T g fz' fd'.
Proof.
  intros R1 R2 R3 R4. unfold wind. now rewrite (proj1 (rep_as _ _ R1)), (proj1 (rep_as _ _ R2)), (proj1 (rep_as _ _ R3)), (proj1 (rep_as _ _ R4)).
Qed.

(** gradient *)
Lemma B_zeros : B zeros = Z0.
Proof.
  rewrite (zeros_split 0). unfold to_grid. rewrite (et_synthesis_linear _ _ _ _ H) by apply repeat_length.
  change (sh_spectogrd (sph T g)) with B. apply (mat_ext nr nc).
  - apply shaped_madd; apply shaped_mscale, (B_shape T g H).
  - apply shaped_mat_of.
  - intros i j Hi Hj. rewrite (mget_madd nr nc) by (auto using shaped_mscale, (B_shape T g H)).
    rewrite !(mget_mscale nr nc) by (auto using (B_shape T g H)). rewrite mget_mat_of by auto. ring.
Qed.
Lemma gradient_calculus f : gshaped f ->
  let u := fst (gradient T g f) in let v := snd (gradient T g f) in
  gshaped u /\ gshaped v
  /\ vorticity T g u v = Z0
  /\ divergence T g u v = laplace T g f.
Proof.
  intros Hf. cbn zeta. unfold gradient. pose proof (A_len T g H f) as L. pose proof (A_resolved T g H f Hf) as RA.
  pose proof (et_grad_shape _ _ _ _ H (A f)) as [S1 S2]. split; auto. split; auto.
  pose proof (et_vrtdiv_len _ _ _ _ H (fst (sh_getgrad (sph T g) (A f))) (snd (sh_getgrad (sph T g) (A f)))) as [L1 L2].
  unfold vorticity, divergence, vorticity_spectral, divergence_spectral, vorticity_divergence_spectral. split.
  - rewrite <- B_zeros. apply f_equal, spec_ext; [rewrite repeat_length; exact L1|]. intros k _. rewrite coef_zero.
    apply (ec_curl_grad _ _ _ _ _ HC); auto.
  - unfold laplace. apply f_equal, spec_ext; [rewrite laplace_length by auto; exact L2|]. rewrite L2. intros k Hk.
    rewrite (ec_div_grad _ _ _ _ _ HC) by auto. rewrite laplace_coef by (auto using calc_rs_ne). reflexivity.
Qed.
Lemma gradient_constant f c : gshaped f ->
  gradient T g (madd f (mat_of nr nc (fun _ _ => c))) = gradient T g f.
Proof.
  intros Hf. unfold gradient. rewrite (A_add T g H) by (auto using shaped_mat_of).
  destruct (et_constant_field _ _ _ _ H c) as [m Em]. unfold to_spectral at 2. rewrite Em.
  rewrite sadd_lin. pose proof (A_len T g H f) as L.
  pose proof (et_grad_linear _ _ _ _ H 1 1 (A f) (mpart g m) L (mpart_len g m)) as E. cbn zeta in E. destruct E as [E1 E2].
  change (RtoC m :: repeat (RtoC 0) (N - 1)) with (mpart g m).
  change (mpart g m) with (RtoC m :: repeat (RtoC 0) (N - 1)) in E1 at 2, E2 at 2.
  rewrite (et_constant_grad _ _ _ _ H) in E1, E2. cbn [fst snd] in E1, E2.
  pose proof (et_grad_shape _ _ _ _ H (A f)) as [S1 S2].
  assert (Q : forall h, gshaped h -> madd (mscale 1 h) (mscale 1 Z0) = h).
  { intros h Hh. apply (mat_ext nr nc); auto.
    - apply shaped_madd; apply shaped_mscale; auto. apply shaped_mat_of.
    - intros i j Hi Hj. rewrite (mget_madd nr nc) by (auto using shaped_mscale, shaped_mat_of).
      rewrite !(mget_mscale nr nc) by (auto using shaped_mat_of). rewrite mget_mat_of by auto. ring. }
  rewrite Q in E1, E2 by auto. destruct (sh_getgrad _ (sadd _ _)), (sh_getgrad _ (A f)). cbn [fst snd] in *. congruence.
Qed.
End Calc.

(** the concrete transforms of Spec_Instance.v satisfy the assumptions *)
Lemma d1_AB x : d1_analysis (d1_synthesis x) 1 = [RtoC (Re (coef x 0)); RtoC (Re (coef x 1)); coef x 2].
Proof.
  assert (E : forall i j, (i < 3)%nat -> (j < 4)%nat -> mget (d1_synthesis x) i j
     = Re (coef x 0) + Re (coef x 1) * d1_sphi i + (Re (coef x 2) * d1_clam j - Im (coef x 2) * d1_slam j) * d1_cphi i).
  { intros i j Hi Hj. unfold d1_synthesis. now rewrite mget_mat_of by auto. }
  set (y := d1_synthesis x) in *. clearbody y. unfold d1_analysis, row_mean, row_cos, row_sin. rewrite !E by lia.
  unfold d1_sphi, d1_clam, d1_slam, d1_cphi. cbn [nth]. destruct (coef x 0) as [p p'], (coef x 1) as [q q'], (coef x 2) as [t t'].
  cbn [Re Im fst snd]. list3; unfold RtoC; apply pair_eqC; try reflexivity; field.
Qed.
Lemma d1_resolved x : length x = 3%nat -> (d1_analysis (d1_synthesis x) 1 = x <-> Im (coef x 0) = 0 /\ Im (coef x 1) = 0).
Proof.
  intros L. rewrite d1_AB. destruct x as [|[p p'] [|[q q'] [|z [|? ?]]]]; cbn in L; try lia. unfold coef. cbn [nth Re Im fst snd].
  unfold RtoC. split; [|intros [-> ->]; reflexivity]. intros E. split; congruence.
Qed.
Lemma d1_calculus rs om : 0 < rs -> calculus_on d1_family (d1_grid rs om).
Proof.
  intros Hr. unfold calculus_on, sph, d1_family, d1_grid. cbn [g_nlat g_nlon g_rsphere g_ntrunc].
  assert (N3 : nspec 1 = 3%nat) by reflexivity.
  constructor; unfold resolved; cbn [sh_grdtospec sh_spectogrd sh_getuv sh_getvrtdivspec sh_getgrad]; try rewrite N3.
  - intros x y w Lx Ly Rx E. apply (d1_resolved x Lx) in Rx. apply (d1_resolved y Ly).
    rewrite !E by lia. destruct (coef x 0), (coef x 1). cbn in Rx |- *. destruct Rx as [-> ->]. split; ring.
  - intros z d Lz Ld Rz Rd Z0 D0. cbn zeta. apply (d1_resolved z Lz) in Rz. apply (d1_resolved d Ld) in Rd.
    destruct Rz as [_ Rz], Rd as [_ Rd].
    destruct z as [|z0 [|z1 [|z2 [|? ?]]]]; cbn in Lz; try lia. destruct d as [|d0 [|d1 [|d2 [|? ?]]]]; cbn in Ld; try lia.
    unfold coef in Z0, D0, Rz, Rd. cbn [nth] in Z0, D0, Rz, Rd. subst z0 d0.
    unfold d1_getvrtdiv, row_mean, row_cos, row_sin, d1_getuv. cbn [fst snd]. rewrite !mget_mat_of by lia.
    unfold coef, d1_sphi, d1_clam, d1_slam, d1_cphi. cbn [nth].
    destruct z1 as [z1 z1'], z2 as [z2 z2'], d1 as [d1 d1'], d2 as [d2 d2']. cbn in Rz, Rd. subst z1' d1'. cbn [Re Im fst snd]. unfold RtoC.
    apply f_equal2; list3; apply pair_eqC; try reflexivity; field; lra.
  - intros c. unfold d1_getuv. apply f_equal2; apply mat_of_ext; intros i j _ _; cbn; ring.
  - intros x k Lx Rx. apply (d1_resolved x Lx) in Rx.
    unfold d1_getvrtdiv, row_mean, row_cos, row_sin, d1_getgrad. cbn [fst snd]. rewrite !mget_mat_of by lia.
    unfold d1_sphi, d1_clam, d1_slam, d1_cphi, coef. cbn [nth].
    destruct x as [|x0 [|x1 [|x2 [|? ?]]]]; cbn in Lx; try lia. cbn [nth].
    destruct k as [|[|[|k]]]; [reflexivity| | |now destruct k]; unfold RtoC; apply pair_eqC; try reflexivity; field; lra.
  - intros x k Lx Rx Hk. apply (d1_resolved x Lx) in Rx.
    unfold d1_getvrtdiv, row_mean, row_cos, row_sin, d1_getgrad. cbn [fst snd]. rewrite !mget_mat_of by lia.
    unfold d1_sphi, d1_clam, d1_slam, d1_cphi, coef. cbn [nth].
    destruct x as [|[x0 x0'] [|[x1 x1'] [|[x2 x2'] [|? ?]]]]; cbn in Lx; try lia. unfold coef in Rx. cbn in Rx. destruct Rx as [-> ->].
    destruct k as [|[|[|k]]]; try lia; unfold RtoC, Cmult, degree; cbn [nth Re Im fst snd degree_from Nat.ltb Nat.leb Nat.sub];
      apply pair_eqC; unfold eigenvalue; cbn [INR Nat.add]; field; lra.
Qed.
