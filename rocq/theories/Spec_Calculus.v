(** Vector calculus with exact transforms: assumptions on pyspharm beyond
    [exact_transforms], and what it means for an argument of a Grid method to
    stand for a spectral field. *)
From Verif Require Export Base.
From Verif Require Import Model_Grid Model_Spectral Spec_Spectral.
From Coquelicot Require Import Complex.

(** the transforms are those of spherical harmonics on a sphere of radius r:
    a resolved field stays resolved when every coefficient is multiplied by a
    real number depending on its degree only; the wind computed from vorticity
    and divergence has them; curl grad = 0, div grad = Laplacian. *)
Record exact_calculus (S : spharm) (r : R) (nlat nlon nt : nat) : Prop := {
  ec_multiplier : forall x y w, length x = nspec nt -> length y = nspec nt -> resolved S nt x ->
    (forall k, (k < nspec nt)%nat -> coef y k = Cmult (RtoC (w (degree nt k))) (coef x k)) -> resolved S nt y;
  ec_helmholtz : forall z d, length z = nspec nt -> length d = nspec nt -> resolved S nt z -> resolved S nt d ->
    coef z 0 = RtoC 0 -> coef d 0 = RtoC 0 ->
    let w := sh_getuv S z d in sh_getvrtdivspec S (fst w) (snd w) nt = (z, d);
  ec_constant_div : forall c,
    sh_getuv S (repeat (RtoC 0) (nspec nt)) (RtoC c :: repeat (RtoC 0) (nspec nt - 1))
    = (mat_of nlat nlon (fun _ _ => 0), mat_of nlat nlon (fun _ _ => 0));
  ec_curl_grad : forall x k, length x = nspec nt -> resolved S nt x ->
    coef (fst (sh_getvrtdivspec S (fst (sh_getgrad S x)) (snd (sh_getgrad S x)) nt)) k = RtoC 0;
  ec_div_grad : forall x k, length x = nspec nt -> resolved S nt x -> (k < nspec nt)%nat ->
    coef (snd (sh_getvrtdivspec S (fst (sh_getgrad S x)) (snd (sh_getgrad S x)) nt)) k
    = Cmult (RtoC (- eigenvalue r (degree nt k))) (coef x k)
}.
Definition calculus_on (T : sphfam) (g : grid) : Prop :=
  exact_calculus (sph T g) (g_rsphere g) (g_nlat g) (g_nlon g) (g_ntrunc g).

(** a field given to a Grid method, gridded or spectral, and its coefficients *)
Inductive represents (T : sphfam) (g : grid) : gfield -> list C -> Prop :=
| rep_spectral x : length x = nspec (g_ntrunc g) -> resolved (sph T g) (g_ntrunc g) x ->
    represents T g (Spectral x) x
| rep_gridded x : length x = nspec (g_ntrunc g) -> resolved (sph T g) (g_ntrunc g) x ->
    represents T g (Gridded (sh_spectogrd (sph T g) x)) x.

(** y has the coefficients of x but no mean *)
Definition mean_removed (n : nat) (x y : list C) : Prop :=
  length y = n /\ forall k, (k < n)%nat -> coef y k = if Nat.eqb k 0 then RtoC 0 else coef x k.
