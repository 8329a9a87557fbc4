(** Specification vocabulary for spectral fields and the assumptions on the
    transforms of pyspharm ([Model_Spectral.spharm] is only the interface). *)
From Verif Require Export Base.
From Verif Require Import Model_Grid Model_Spectral.
From Coquelicot Require Import Complex.

(** Number of coefficients of a triangular truncation. *)
Definition nspec (ntrunc : nat) : nat := ((ntrunc + 1) * (ntrunc + 2) / 2)%nat.

(** Degree of coefficient number [k]: columns of length T+1, T, T-1, ... *)
Fixpoint degree_from (m len k : nat) : nat :=
  match len with
  | O => O
  | S len' => if Nat.ltb k len then (m + k)%nat else degree_from (S m) len' (k - len)
  end.
Definition degree (ntrunc k : nat) : nat := degree_from 0 (S ntrunc) k.
(** eigenvalue of minus the Laplacian on the sphere of radius r for degree n *)
Definition eigenvalue (r : R) (n : nat) : R := INR n * (INR n + 1) / (r * r).

Definition coef (x : list C) (k : nat) : C := nth k x (RtoC 0).

(** [x] is represented exactly on the grid: synthesis followed by analysis
    reproduces it. *)
Definition resolved (S : spharm) (nt : nat) (x : list C) : Prop :=
  sh_grdtospec S (sh_spectogrd S x) nt = x.

(** Exact transforms on an nlat x nlon grid with truncation nt. *)
Record exact_transforms (S : spharm) (nlat nlon nt : nat) : Prop := {
  et_len : forall f, length (sh_grdtospec S f nt) = nspec nt;
  et_shape : forall x, shaped nlat nlon (sh_spectogrd S x);
  et_analysis_linear : forall a b f h, shaped nlat nlon f -> shaped nlat nlon h ->
    sh_grdtospec S (madd (mscale a f) (mscale b h)) nt
    = sadd (sscale a (sh_grdtospec S f nt)) (sscale b (sh_grdtospec S h nt));
  et_synthesis_linear : forall a b x y, length x = nspec nt -> length y = nspec nt ->
    sh_spectogrd S (sadd (sscale a x) (sscale b y))
    = madd (mscale a (sh_spectogrd S x)) (mscale b (sh_spectogrd S y));
  et_projection : forall f, shaped nlat nlon f -> resolved S nt (sh_grdtospec S f nt);
  et_wind_shape : forall x y, shaped nlat nlon (fst (sh_getuv S x y)) /\ shaped nlat nlon (snd (sh_getuv S x y));
  et_wind_linear : forall a b x y x' y', length x = nspec nt -> length y = nspec nt ->
    length x' = nspec nt -> length y' = nspec nt ->
    let w := sh_getuv S (sadd (sscale a x) (sscale b x')) (sadd (sscale a y) (sscale b y')) in
    fst w = madd (mscale a (fst (sh_getuv S x y))) (mscale b (fst (sh_getuv S x' y')))
    /\ snd w = madd (mscale a (snd (sh_getuv S x y))) (mscale b (snd (sh_getuv S x' y')));
  et_vrtdiv_len : forall u v, length (fst (sh_getvrtdivspec S u v nt)) = nspec nt
    /\ length (snd (sh_getvrtdivspec S u v nt)) = nspec nt;
  et_vrtdiv_linear : forall a b u v u' v', shaped nlat nlon u -> shaped nlat nlon v ->
    shaped nlat nlon u' -> shaped nlat nlon v' ->
    let w := sh_getvrtdivspec S (madd (mscale a u) (mscale b u')) (madd (mscale a v) (mscale b v')) nt in
    fst w = sadd (sscale a (fst (sh_getvrtdivspec S u v nt))) (sscale b (fst (sh_getvrtdivspec S u' v' nt)))
    /\ snd w = sadd (sscale a (snd (sh_getvrtdivspec S u v nt))) (sscale b (snd (sh_getvrtdivspec S u' v' nt)));
  (** vorticity and divergence of a wind field have zero global mean *)
  et_vrtdiv_mean : forall u v, coef (fst (sh_getvrtdivspec S u v nt)) 0 = RtoC 0
    /\ coef (snd (sh_getvrtdivspec S u v nt)) 0 = RtoC 0;
  (** the wind computed from a mean-free vorticity and zero divergence has that
      vorticity and no divergence *)
  et_inversion : forall z, length z = nspec nt -> resolved S nt z -> coef z 0 = RtoC 0 ->
    let w := sh_getuv S z (repeat (RtoC 0) (nspec nt)) in
    sh_getvrtdivspec S (fst w) (snd w) nt = (z, repeat (RtoC 0) (nspec nt));
  (** the global mean is a real multiple of a constant, which is represented
      exactly and carries no wind *)
  et_mean_real : forall f, Im (coef (sh_grdtospec S f nt) 0) = 0;
  et_constant : forall c, resolved S nt (RtoC c :: repeat (RtoC 0) (nspec nt - 1));
  et_constant_wind : forall c,
    sh_getuv S (RtoC c :: repeat (RtoC 0) (nspec nt - 1)) (repeat (RtoC 0) (nspec nt))
    = (mat_of nlat nlon (fun _ _ => 0), mat_of nlat nlon (fun _ _ => 0));
  et_grad_shape : forall x, shaped nlat nlon (fst (sh_getgrad S x)) /\ shaped nlat nlon (snd (sh_getgrad S x));
  et_grad_linear : forall a b x y, length x = nspec nt -> length y = nspec nt ->
    let w := sh_getgrad S (sadd (sscale a x) (sscale b y)) in
    fst w = madd (mscale a (fst (sh_getgrad S x))) (mscale b (fst (sh_getgrad S y)))
    /\ snd w = madd (mscale a (snd (sh_getgrad S x))) (mscale b (snd (sh_getgrad S y)));
  (** a constant field has only a mean coefficient, which has no gradient *)
  et_constant_field : forall c, exists m,
    sh_grdtospec S (mat_of nlat nlon (fun _ _ => c)) nt = RtoC m :: repeat (RtoC 0) (nspec nt - 1);
  et_constant_grad : forall c, sh_getgrad S (RtoC c :: repeat (RtoC 0) (nspec nt - 1))
    = (mat_of nlat nlon (fun _ _ => 0), mat_of nlat nlon (fun _ _ => 0))
}.
Definition exact_on (T : sphfam) (g : grid) : Prop :=
  exact_transforms (sph T g) (g_nlat g) (g_nlon g) (g_ntrunc g).
