(** Spectral operators (C20-C22). *)
From Coq Require Export String.
From Verif Require Import Base Model_Grid Model_Spectral Spec_Grid Spec_Spectral Spec_Instance.
From Verif Require Import Proofs_Base Proofs_Grid Proofs_Spectral Proofs_Instance.
From Coquelicot Require Import Coquelicot.
From Coq Require Import List Lia Lra.
Open Scope R_scope.

(** C20: the Laplacian multiplies by minus the eigenvalue n(n+1)/r^2 of the degree *)
Theorem C20_laplacian : forall res rs om nt g, mk_grid res rs om nt = Ok g ->
  forall x, length x = nspec (g_ntrunc g) ->
  length (laplace_spectral g x) = nspec (g_ntrunc g)
  /\ forall k, (k < nspec (g_ntrunc g))%nat ->
     coef (laplace_spectral g x) k = (RtoC (- eigenvalue (g_rsphere g) (degree (g_ntrunc g) k)) * coef x k)%C.
Proof. exact laplacian_spec. Qed.
Print Assumptions C20_laplacian.

Theorem C20_poisson_inverts : forall res rs om nt g, mk_grid res rs om nt = Ok g ->
  forall x, let N := nspec (g_ntrunc g) in length x = N ->
  (length (laplace_spectral g (solve_poisson_spectral g x 0)) = N
    /\ coef (laplace_spectral g (solve_poisson_spectral g x 0)) 0 = RtoC 0
    /\ forall k, (0 < k < N)%nat -> coef (laplace_spectral g (solve_poisson_spectral g x 0)) k = coef x k)
  /\ (length (solve_poisson_spectral g (laplace_spectral g x) 0) = N
    /\ coef (solve_poisson_spectral g (laplace_spectral g x) 0) 0 = RtoC 0
    /\ forall k, (0 < k < N)%nat -> coef (solve_poisson_spectral g (laplace_spectral g x) 0) k = coef x k)
  /\ forall op_add, length (solve_poisson_spectral g x op_add) = N /\ coef (solve_poisson_spectral g x op_add) 0 = RtoC 0.
Proof. exact poisson_inverts. Qed.
Print Assumptions C20_poisson_inverts.

Example C20_nonvacuous : exists g, mk_grid 90 6371200 (7292 / 100000000) (Some 1%Z) = Ok g
  /\ length [RtoC 1; RtoC 2; Ci] = nspec (g_ntrunc g)
  /\ degree (g_ntrunc g) 0 = 0%nat /\ degree (g_ntrunc g) 1 = 1%nat /\ degree (g_ntrunc g) 2 = 1%nat.
Proof.
  exists (d1_grid 6371200 (7292 / 100000000)). split; [apply d1_grid_ok; lra|]. repeat split; reflexivity.
Qed.

(** C21 holds in every coefficient but the mean *)
Theorem C21_helmholtz_partial : forall res rs om nt g, mk_grid res rs om nt = Ok g ->
  forall x p, length x = nspec (g_ntrunc g) ->
  (forall n, (0 < n <= g_ntrunc g)%nat -> eigenvalue (g_rsphere g) n + p <> 0) ->
  let f := solve_poisson_spectral g x p in
  forall k, (0 < k < nspec (g_ntrunc g))%nat -> (coef (laplace_spectral g f) k - RtoC p * coef f k)%C = coef x k.
Proof. exact helmholtz. Qed.
Print Assumptions C21_helmholtz_partial.

(** ... whose value is lost, although for op_add <> 0 the operator is invertible
    there too *)
Theorem C21_mean_refuted : forall res rs om nt g, mk_grid res rs om nt = Ok g ->
  forall x p, length x = nspec (g_ntrunc g) -> coef x 0 <> RtoC 0 ->
  let f := solve_poisson_spectral g x p in
  (coef (laplace_spectral g f) 0 - RtoC p * coef f 0)%C <> coef x 0.
Proof. intros res rs om nt g Hg x p Hx H0 f. unfold f. rewrite (helmholtz_mean _ _ _ _ _ Hg x p Hx). congruence. Qed.
Print Assumptions C21_mean_refuted.

Example C21_nonvacuous : exists g, mk_grid 90 2 1 (Some 1%Z) = Ok g
  /\ length [RtoC 1; RtoC 2; Ci] = nspec (g_ntrunc g) /\ coef [RtoC 1; RtoC 2; Ci] 0 <> RtoC 0
  /\ (forall n, (0 < n <= g_ntrunc g)%nat -> eigenvalue (g_rsphere g) n + 1 <> 0).
Proof.
  exists (d1_grid 2 1). split; [apply d1_grid_ok; lra|]. split; [reflexivity|]. split.
  - cbn. intros E. apply RtoC_inj in E. lra.
  - intros n Hn. unfold eigenvalue. cbn [g_rsphere d1_grid]. pose proof (pos_INR n).
    assert (0 <= INR n * (INR n + 1) / (2 * 2)) by (apply Rdiv_le_0_compat; nra). lra.
Qed.

(** C22 *)
Theorem C22_diffusion_step : forall res rs om nt g, mk_grid res rs om nt = Ok g ->
  forall f coeff dt order, let N := nspec (g_ntrunc g) in length f = N -> 0 <= dt * coeff ->
  let h := solve_diffusion_spectral g f coeff dt order in
  length h = N
  /\ (forall k, (k < N)%nat ->
        (coef h k + RtoC (dt * coeff) * coef (Nat.iter order (fun x => sopp (laplace_spectral g x)) h) k)%C = coef f k)
  /\ (forall k, (k < N)%nat -> Cmod (coef h k) <= Cmod (coef f k))
  /\ (forall k l, (k < N)%nat -> (l < N)%nat -> (degree (g_ntrunc g) k <= degree (g_ntrunc g) l)%nat ->
        Cmod (coef h l) * Cmod (coef f k) <= Cmod (coef h k) * Cmod (coef f l))
  /\ ((1 <= order)%nat -> coef h 0 = coef f 0)
  /\ (dt * coeff = 0 -> h = f).
Proof. exact diffusion_step. Qed.
Print Assumptions C22_diffusion_step.

Example C22_nonvacuous : exists g, mk_grid 90 1 1 (Some 1%Z) = Ok g
  /\ length [RtoC 1; RtoC 6; Ci] = nspec (g_ntrunc g) /\ 0 <= 1 * 1
  /\ coef (solve_diffusion_spectral g [RtoC 1; RtoC 6; Ci] 1 1 1) 1 = RtoC 2.
Proof.
  exists (d1_grid 1 1). split; [apply d1_grid_ok; lra|]. split; [reflexivity|]. split; [lra|].
  assert (Hg : mk_grid 90 1 1 (Some 1%Z) = Ok (d1_grid 1 1)) by (apply d1_grid_ok; lra).
  destruct (C22_diffusion_step _ _ _ _ _ Hg [RtoC 1; RtoC 6; Ci] 1 1 1%nat) as [L [E _]]; [reflexivity|lra|].
  set (h := solve_diffusion_spectral (d1_grid 1 1) [RtoC 1; RtoC 6; Ci] 1 1 1) in *.
  specialize (E 1%nat ltac:(cbn; lia)). cbn [Nat.iter nat_rect] in E.
  rewrite coef_sopp in E by (rewrite (proj1 (laplacian_spec _ _ _ _ _ Hg h L)); cbn; lia).
  rewrite (proj2 (laplacian_spec _ _ _ _ _ Hg h L)) in E by (cbn; lia).
  assert (EV : eigenvalue (g_rsphere (d1_grid 1 1)) (degree (g_ntrunc (d1_grid 1 1)) 1) = 2).
  { unfold eigenvalue. cbn. field. }
  rewrite EV in E. change (coef [RtoC 1; RtoC 6; Ci] 1) with (RtoC 6) in E.
  destruct (coef h 1) as [a b]. unfold RtoC, Cplus, Cmult, Copp in *. cbn [fst snd] in *.
  injection E as E1 E2. apply pair_eqC; lra.
Qed.
