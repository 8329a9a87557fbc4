(** Winds from gridded or spectral vorticity and divergence, gridded Laplacian,
    Poisson and diffusion solvers, gradient (C89-C91). *)
From Coq Require Export String.
From Verif Require Import Base Model_Grid Model_Time Model_Spectral Model_State Spec_Grid Spec_Spectral Spec_State Spec_Instance Spec_Calculus.
From Verif Require Import Proofs_Base Proofs_Grid Proofs_Spectral Proofs_Instance Proofs_State Proofs_Calculus.
From Coquelicot Require Import Coquelicot.
From Coq Require Import List Lia Lra.
Open Scope R_scope.

(** C89 *)
Theorem C89_wind_inverts : forall T g, exact_on T g -> calculus_on T g ->
  forall vort div z d, represents T g vort z -> represents T g div d ->
  let N := nspec (g_ntrunc g) in
  let u := fst (wind T g vort div) in let v := snd (wind T g vort div) in
  shaped (g_nlat g) (g_nlon g) u /\ shaped (g_nlat g) (g_nlon g) v
  /\ mean_removed N z (vorticity_spectral T g u v) /\ mean_removed N d (divergence_spectral T g u v)
  /\ sh_grdtospec (sph T g) (vorticity T g u v) (g_ntrunc g) = vorticity_spectral T g u v
  /\ sh_grdtospec (sph T g) (divergence T g u v) (g_ntrunc g) = divergence_spectral T g u v.
Proof. intros T g H HC vort div z d Rz Rd. exact (wind_inverts g T H HC vort div z d Rz Rd). Qed.
Print Assumptions C89_wind_inverts.

Theorem C89_gridded_or_spectral : forall T g vort div vort' div' z d,
  represents T g vort z -> represents T g div d -> represents T g vort' z -> represents T g div' d ->
  wind T g vort div = wind T g vort' div'.
Proof. intros T g vort div vort' div' z d. exact (wind_same g T vort div vort' div' z d). Qed.
Print Assumptions C89_gridded_or_spectral.

Example C89_nonvacuous : let g := d1_grid 2 1 in let z := [RtoC 0; RtoC 1; Ci] in let d := [RtoC 5; RtoC 3; RtoC 1] in
  exact_on d1_family g /\ calculus_on d1_family g
  /\ represents d1_family g (Gridded (to_grid d1_family g z)) z /\ represents d1_family g (Spectral d) d
  /\ mget (fst (wind d1_family g (Gridded (to_grid d1_family g z)) (Spectral d))) 1 1 = 2.
Proof.
  cbn zeta. split; [apply d1_exact; lra|]. split; [apply d1_calculus; lra|].
  assert (R1 : represents d1_family (d1_grid 2 1) (Gridded (to_grid d1_family (d1_grid 2 1) [RtoC 0; RtoC 1; Ci])) [RtoC 0; RtoC 1; Ci]).
  { apply rep_gridded; [reflexivity|]. apply d1_resolved; [reflexivity|]. split; reflexivity. }
  assert (R2 : represents d1_family (d1_grid 2 1) (Spectral [RtoC 5; RtoC 3; RtoC 1]) [RtoC 5; RtoC 3; RtoC 1]).
  { apply rep_spectral; [reflexivity|]. apply d1_resolved; [reflexivity|]. split; reflexivity. }
  split; auto. split; auto. unfold wind. rewrite (proj1 (rep_as _ _ _ _ R1)), (proj1 (rep_as _ _ _ _ R2)).
  cbn [sph d1_family sh_getuv g_nlat g_nlon g_rsphere d1_grid]. unfold d1_getuv. cbn [fst]. rewrite mget_mat_of by lia.
  unfold coef, d1_cphi, d1_clam, d1_slam, d1_sphi. cbn [nth Re Im fst snd RtoC Ci]. cbn. lra.
Qed.

(** C90: gridded operators; the part of a gridded field that the truncation does
    not represent is dropped *)
Theorem C90_laplace : forall res rs om nt g T, mk_grid res rs om nt = Ok g -> exact_on T g -> calculus_on T g ->
  forall f, shaped (g_nlat g) (g_nlon g) f ->
  let co (h : mat) k := coef (sh_grdtospec (sph T g) h (g_ntrunc g)) k in
  forall k, (k < nspec (g_ntrunc g))%nat ->
  co (laplace T g f) k = (RtoC (- eigenvalue (g_rsphere g) (degree (g_ntrunc g) k)) * co f k)%C.
Proof.
  intros res rs om nt g T Hg H HC f Hf co k Hk. unfold co.
  change (sh_grdtospec (sph T g) (laplace T g f) (g_ntrunc g)) with (to_spectral T g (laplace T g f)).
  rewrite (A_laplace res rs om nt g T Hg H HC f Hf).
  apply (laplacian_spec _ _ _ _ _ Hg); auto. apply (A_len T g H).
Qed.
Print Assumptions C90_laplace.

Theorem C90_poisson : forall res rs om nt g T, mk_grid res rs om nt = Ok g -> exact_on T g -> calculus_on T g ->
  forall f, shaped (g_nlat g) (g_nlon g) f ->
  let N := nspec (g_ntrunc g) in let an (h : mat) := sh_grdtospec (sph T g) h (g_ntrunc g) in
  mean_removed N (an f) (an (laplace T g (solve_poisson T g f 0)))
  /\ mean_removed N (an f) (an (solve_poisson T g (laplace T g f) 0))
  /\ laplace T g (solve_poisson T g f 0) = solve_poisson T g (laplace T g f) 0.
Proof. intros res rs om nt g T Hg H HC f Hf. exact (poisson_gridded res rs om nt g T Hg H HC f Hf). Qed.
Print Assumptions C90_poisson.

Theorem C90_helmholtz : forall res rs om nt g T, mk_grid res rs om nt = Ok g -> exact_on T g -> calculus_on T g ->
  forall f p, shaped (g_nlat g) (g_nlon g) f ->
  (forall n, (0 < n <= g_ntrunc g)%nat -> eigenvalue (g_rsphere g) n + p <> 0) ->
  let co (h : mat) k := coef (sh_grdtospec (sph T g) h (g_ntrunc g)) k in
  let s := solve_poisson T g f p in
  co s 0%nat = RtoC 0
  /\ forall k, (0 < k < nspec (g_ntrunc g))%nat -> (co (laplace T g s) k - RtoC p * co s k)%C = co f k.
Proof.
  intros res rs om nt g T Hg H HC f p Hf Hp co s. unfold co, s.
  change (sh_grdtospec (sph T g) ?h (g_ntrunc g)) with (to_spectral T g h).
  assert (L : length (to_spectral T g f) = nspec (g_ntrunc g)) by apply (A_len T g H).
  split.
  - change (coef (to_spectral T g (solve_poisson T g f p)) 0 = RtoC 0).
    rewrite (A_poisson res rs om nt g T Hg H HC f p Hf Hp). apply poisson_coef0.
  - intros k Hk.
    change ((coef (to_spectral T g (laplace T g (solve_poisson T g f p))) k
             - RtoC p * coef (to_spectral T g (solve_poisson T g f p)) k)%C = coef (to_spectral T g f) k).
    rewrite (A_laplace res rs om nt g T Hg H HC) by apply (B_shape T g H).
    rewrite (A_poisson res rs om nt g T Hg H HC f p Hf Hp). exact (helmholtz _ _ _ _ _ Hg _ p L Hp k Hk).
Qed.
Print Assumptions C90_helmholtz.

Theorem C90_diffusion : forall res rs om nt g T, mk_grid res rs om nt = Ok g -> exact_on T g -> calculus_on T g ->
  forall f coeff dt order, shaped (g_nlat g) (g_nlon g) f -> 0 <= dt * coeff ->
  let co (h : mat) k := coef (sh_grdtospec (sph T g) h (g_ntrunc g)) k in
  let s := solve_diffusion T g f coeff dt order in
  (forall k, (k < nspec (g_ntrunc g))%nat ->
    (RtoC (1 + dt * coeff * eigenvalue (g_rsphere g) (degree (g_ntrunc g) k) ^ order) * co s k)%C = co f k)
  /\ (dt * coeff = 0 -> s = sh_spectogrd (sph T g) (sh_grdtospec (sph T g) f (g_ntrunc g))).
Proof.
  intros res rs om nt g T Hg H HC f coeff dt order Hf Hd co s. unfold co, s.
  assert (L : length (to_spectral T g f) = nspec (g_ntrunc g)) by apply (A_len T g H). split.
  - intros k Hk.
    change (sh_grdtospec (sph T g) (solve_diffusion T g f coeff dt order) (g_ntrunc g))
      with (to_spectral T g (solve_diffusion T g f coeff dt order)).
    rewrite (A_diffusion res rs om nt g T Hg H HC f coeff dt order Hf Hd).
    rewrite diffusion_coef by (auto using (calc_rs_ne res rs om nt g Hg)).
    change (coef (sh_grdtospec (sph T g) f (g_ntrunc g)) k) with (coef (to_spectral T g f) k).
    assert (0 <= eigenvalue (g_rsphere g) (degree (g_ntrunc g) k) ^ order)
      by (apply pow_le, eigenvalue_nonneg, (calc_rs res rs om nt g Hg)).
    pose proof (Rmult_le_pos _ _ Hd H0). field. intros E. apply RtoC_inj in E. lra.
  - intros E0. pose proof (diffusion_step _ _ _ _ _ Hg (to_spectral T g f) coeff dt order L Hd) as [_ [_ [_ [_ [_ Q]]]]].
    unfold solve_diffusion. now rewrite (Q E0).
Qed.
Print Assumptions C90_diffusion.

Example C90_nonvacuous : exists g, mk_grid 90 1 1 (Some 1%Z) = Ok g /\ exact_on d1_family g /\ calculus_on d1_family g
  /\ (forall n, (0 < n <= g_ntrunc g)%nat -> eigenvalue (g_rsphere g) n + 1 <> 0)
  /\ exists f, shaped (g_nlat g) (g_nlon g) f /\ mget f 0 0 = 7 /\ mget (laplace d1_family g f) 0 0 = -4.
Proof.
  exists (d1_grid 1 1). assert (Hg : mk_grid 90 1 1 (Some 1%Z) = Ok (d1_grid 1 1)) by (apply d1_grid_ok; lra).
  split; auto. split; [apply d1_exact; lra|]. split; [apply d1_calculus; lra|]. split.
  { intros n Hn. pose proof (eigenvalue_pos (g_rsphere (d1_grid 1 1)) n). cbn [g_rsphere d1_grid] in *. specialize (H Rlt_0_1 (proj1 Hn)). lra. }
  exists (to_grid d1_family (d1_grid 1 1) [RtoC 5; RtoC 2; Ci]). split; [apply shaped_mat_of|]. split.
  - cbn [to_grid sph d1_family sh_spectogrd]. unfold to_grid. cbn [sph d1_family sh_spectogrd]. unfold d1_synthesis. rewrite mget_mat_of by lia.
    unfold coef, d1_cphi, d1_clam, d1_slam, d1_sphi. cbn. lra.
  - unfold laplace, to_grid, to_spectral. cbn [sph d1_family sh_spectogrd sh_grdtospec g_ntrunc d1_grid].
    rewrite d1_AB. change (mkGrid 90 1 1 4 3 1) with (d1_grid 1 1).
    unfold d1_synthesis. rewrite mget_mat_of by lia.
    rewrite !(proj2 (laplacian_spec _ _ _ _ _ Hg
      [RtoC (Re (coef [RtoC 5; RtoC 2; Ci] 0)); RtoC (Re (coef [RtoC 5; RtoC 2; Ci] 1)); coef [RtoC 5; RtoC 2; Ci] 2]
      (eq_refl 3%nat))) by (cbn; lia).
    unfold coef, d1_cphi, d1_clam, d1_slam, d1_sphi. cbn [nth].
    unfold degree, eigenvalue. cbn. field.
Qed.

(** C91 *)
Theorem C91_gradient : forall res rs om nt g T, mk_grid res rs om nt = Ok g -> exact_on T g -> calculus_on T g ->
  forall f, shaped (g_nlat g) (g_nlon g) f ->
  let u := fst (gradient T g f) in let v := snd (gradient T g f) in
  shaped (g_nlat g) (g_nlon g) u /\ shaped (g_nlat g) (g_nlon g) v
  /\ vorticity T g u v = mat_of (g_nlat g) (g_nlon g) (fun _ _ => 0)
  /\ divergence T g u v = laplace T g f.
Proof. intros res rs om nt g T Hg H HC f Hf. exact (gradient_calculus res rs om nt g T Hg H HC f Hf). Qed.
Print Assumptions C91_gradient.
Theorem C91_constant : forall T g, exact_on T g -> forall f c, shaped (g_nlat g) (g_nlon g) f ->
  gradient T g (madd f (mat_of (g_nlat g) (g_nlon g) (fun _ _ => c))) = gradient T g f.
Proof. intros T g H f c Hf. exact (gradient_constant g T H f c Hf). Qed.
Print Assumptions C91_constant.

Example C91_nonvacuous : exists g, mk_grid 90 1 1 (Some 1%Z) = Ok g /\ exact_on d1_family g /\ calculus_on d1_family g
  /\ exists f, shaped (g_nlat g) (g_nlon g) f /\ mget (snd (gradient d1_family g f)) 1 0 = 2.
Proof.
  exists (d1_grid 1 1). assert (Hg : mk_grid 90 1 1 (Some 1%Z) = Ok (d1_grid 1 1)) by (apply d1_grid_ok; lra).
  split; auto. split; [apply d1_exact; lra|]. split; [apply d1_calculus; lra|].
  exists (to_grid d1_family (d1_grid 1 1) [RtoC 5; RtoC 2; Ci]). split; [apply shaped_mat_of|].
  unfold gradient, to_grid, to_spectral. cbn [sph d1_family sh_spectogrd sh_grdtospec sh_getgrad g_ntrunc g_rsphere g_nlat g_nlon d1_grid].
  rewrite d1_AB. unfold d1_getgrad. cbn [snd]. rewrite mget_mat_of by lia.
  unfold coef, d1_cphi, d1_clam, d1_slam, d1_sphi. cbn. field.
Qed.
