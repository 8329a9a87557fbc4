(** Symmetries of the sphere: rotation about the axis and reflection in the
    equator, of fields, of spectral coefficients and of integrations, and what
    they mean for the transforms of pyspharm. *)
From Coq Require Export String.
From Verif Require Import Base Model_Grid Model_Time Model_Spectral Model_State Model_Run Spec_Spectral Spec_Sym.
From Coquelicot Require Import Complex.
From Coq Require Import List.
Open Scope R_scope.

(** zonal order of coefficient number k: columns of length T+1, T, T-1, ... *)
Fixpoint order_from (m len k : nat) : nat :=
  match len with
  | O => O
  | S len' => if Nat.ltb k len then m else order_from (S m) len' (k - len)
  end.
Definition order (ntrunc k : nat) : nat := order_from 0 (S ntrunc) k.
(** every coefficient multiplied by its own number *)
Definition weigh (w : nat -> C) (x : list C) : list C := map (fun k => Cmult (w k) (coef x k)) (seq 0 (length x)).

(** the field seen from one gridpoint further east; its harmonics of order m are
    multiplied by exp(2 pi i m / nlon) *)
Definition rotate (nlon : nat) (f : mat) : mat := relabel 0 (fun j => ((j + 1) mod nlon)%nat) f.
Definition turn (nt nlon : nat) (x : list C) : list C :=
  weigh (fun k => let a := INR (order nt k) * (2 * PI / INR nlon) in (cos a, sin a)) x.
Record rotation_symmetric (S : spharm) (nlat nlon nt : nat) : Prop := {
  ro_analysis : forall f, shaped nlat nlon f -> sh_grdtospec S (rotate nlon f) nt = turn nt nlon (sh_grdtospec S f nt);
  ro_synthesis : forall x, length x = nspec nt -> sh_spectogrd S (turn nt nlon x) = rotate nlon (sh_spectogrd S x);
  ro_wind : forall z d, length z = nspec nt -> length d = nspec nt ->
    sh_getuv S (turn nt nlon z) (turn nt nlon d) = (rotate nlon (fst (sh_getuv S z d)), rotate nlon (snd (sh_getuv S z d)));
  ro_vrtdiv : forall u v, shaped nlat nlon u -> shaped nlat nlon v ->
    sh_getvrtdivspec S (rotate nlon u) (rotate nlon v) nt
    = (turn nt nlon (fst (sh_getvrtdivspec S u v nt)), turn nt nlon (snd (sh_getvrtdivspec S u v nt)))
}.

(** the field reflected in the equator and multiplied by s; its harmonics of
    order m and degree n are multiplied by s*(-1)^(m+n).  Scalars keep their sign
    (s = 1), vorticity and the northward wind change it (s = -1). *)
Definition mirror (s : R) (f : mat) : mat := mscale s (rev f).
Definition flip (s : R) (nt : nat) (x : list C) : list C :=
  weigh (fun k => RtoC (s * (-1) ^ (order nt k + degree nt k))) x.
Record reflection_symmetric (S : spharm) (nlat nlon nt : nat) : Prop := {
  re_analysis : forall s f, shaped nlat nlon f -> sh_grdtospec S (mirror s f) nt = flip s nt (sh_grdtospec S f nt);
  re_synthesis : forall s x, length x = nspec nt -> sh_spectogrd S (flip s nt x) = mirror s (sh_spectogrd S x);
  re_wind : forall z d, length z = nspec nt -> length d = nspec nt ->
    sh_getuv S (flip (-1) nt z) (flip 1 nt d) = (mirror 1 (fst (sh_getuv S z d)), mirror (-1) (snd (sh_getuv S z d)));
  re_vrtdiv : forall s u v, shaped nlat nlon u -> shaped nlat nlon v ->
    sh_getvrtdivspec S (mirror s u) (mirror (- s) v) nt
    = (flip (- s) nt (fst (sh_getvrtdivspec S u v nt)), flip s nt (snd (sh_getvrtdivspec S u v nt)))
}.

(** the reflected meridians: longitude lambda becomes -lambda; coefficients are
    conjugated, the eastward wind and the vorticity change sign.  Coefficients of
    order 0 of real fields are real. *)
Definition westward (nlon : nat) (f : mat) : mat := relabel 0 (fun j => ((nlon - j) mod nlon)%nat) f.
Record reversal_symmetric (S : spharm) (nlat nlon nt : nat) : Prop := {
  rv_analysis : forall f, shaped nlat nlon f -> sh_grdtospec S (westward nlon f) nt = map Cconj (sh_grdtospec S f nt);
  rv_wind : forall z d, length z = nspec nt -> length d = nspec nt ->
    sh_getuv S (sscale (-1) (map Cconj z)) (map Cconj d)
    = (mscale (-1) (westward nlon (fst (sh_getuv S z d))), westward nlon (snd (sh_getuv S z d)));
  rv_vrtdiv : forall u v, shaped nlat nlon u -> shaped nlat nlon v ->
    sh_getvrtdivspec S (mscale (-1) (westward nlon u)) (westward nlon v) nt
    = (sscale (-1) (map Cconj (fst (sh_getvrtdivspec S u v nt))), map Cconj (snd (sh_getvrtdivspec S u v nt)));
  rv_real : forall u v k, order nt k = 0%nat -> Im (coef (snd (sh_getvrtdivspec S u v nt)) k) = 0
}.

Definition rotates (T : sphfam) (g : grid) : Prop := rotation_symmetric (sph T g) (g_nlat g) (g_nlon g) (g_ntrunc g).
Definition reflects (T : sphfam) (g : grid) : Prop := reflection_symmetric (sph T g) (g_nlat g) (g_nlon g) (g_ntrunc g).
Definition reverses (T : sphfam) (g : grid) : Prop := reversal_symmetric (sph T g) (g_nlat g) (g_nlon g) (g_ntrunc g).

(** the rotated and the reflected atmosphere (PV is absolute vorticity) *)
Definition rotated {K} (s : state K) : state K :=
  mkState (s_grid s) (s_time s) (turn (g_ntrunc (s_grid s)) (g_nlon (s_grid s)) (s_pvs s)).
Definition reflected {K} (s : state K) : state K :=
  mkState (s_grid s) (s_time s) (flip (-1) (g_ntrunc (s_grid s)) (s_pvs s)).

(** a function applied to all states of the outcome of an integration *)
Definition map_list {K} (f : state K -> state K) (l : runlist K) : runlist K :=
  match l with PlainList l => PlainList (map f l) | AStateList l => AStateList (map f l) end.
Definition map_run {K} (f : state K -> state K) (r : res (state K * runlist K)) : res (state K * runlist K) :=
  on_ok (fun p => (f (fst p), map_list f (snd p))) r.

(** models on grid g that correspond under the transformation [f] of states and
    [F] of fields: same diffusion, transformed background and forcing *)
Definition map_value (F : mat -> mat) (v : fval) : fval := match v with FMat m => FMat (F m) | FNum c => FNum c end.
Definition gridded_forcing {K} (g : grid) (h : state K -> res fval) : Prop :=
  forall s m, s_grid s = g -> h s = Ok (FMat m) -> shaped (g_nlat g) (g_nlon g) m.
Definition corresponding {K} (g : grid) (f : state K -> state K) (F : mat -> mat) (A B : bmodel K) : Prop :=
  m_order A = m_order B /\ m_coeff A = m_coeff B
  /\ match m_bg A, m_bg B with
     | None, None => True
     | Some a, Some b => shaped (g_nlat g) (g_nlon g) a /\ b = F a
     | _, _ => False
     end
  /\ match m_rhs A, m_rhs B with
     | None, None => True
     | Some h, Some h' => gridded_forcing g h
         /\ forall s, s_grid s = g -> length (s_pvs s) = nspec (g_ntrunc g) -> h' (f s) = on_ok (map_value F) (h s)
     | _, _ => False
     end.

(** a field that does not depend on longitude *)
Definition zonally_uniform (nlat nlon : nat) (f : mat) : Prop :=
  shaped nlat nlon f /\ forall i j, (i < nlat)%nat -> (j < nlon)%nat -> mget f i j = mget f i 0.
