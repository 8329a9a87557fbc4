(** Forcing expressions on the rotated and on the reflected sphere. *)
From Coq Require Export String.
From Verif Require Import Base Model_Grid Model_Time Model_Spectral Model_State Model_Run Model_RHS Spec_Spectral Spec_Sym Spec_Symmetry.
From Coquelicot Require Import Complex.
From Coq Require Import List.
Open Scope R_scope.

(** everything seen from n gridpoints further east *)
Definition rotate_by (n nlon : nat) (f : mat) : mat := relabel 0 (fun j => ((j + n) mod nlon)%nat) f.
Definition turn_by (n nt nlon : nat) (x : list C) : list C :=
  weigh (fun k => let a := INR n * (INR (order nt k) * (2 * PI / INR nlon)) in (cos a, sin a)) x.
Definition rotated_by {K} (n : nat) (s : state K) : state K :=
  mkState (s_grid s) (s_time s) (turn_by n (g_ntrunc (s_grid s)) (g_nlon (s_grid s)) (s_pvs s)).
(** a field that is the same n gridpoints further east *)
Definition repeats (n nlat nlon : nat) (f : mat) : Prop :=
  forall i j, (i < nlat)%nat -> (j < nlon)%nat -> mget f i ((j + n) mod nlon) = mget f i j.

(** pyspharm's gradient of the rotated and of the reflected field; the northward
    component changes its sign under reflection *)
Definition gradient_rotates (T : sphfam) (g : grid) : Prop :=
  forall x, length x = nspec (g_ntrunc g) -> sh_getgrad (sph T g) (turn (g_ntrunc g) (g_nlon g) x)
    = (rotate (g_nlon g) (fst (sh_getgrad (sph T g) x)), rotate (g_nlon g) (snd (sh_getgrad (sph T g) x))).
Definition gradient_reflects (T : sphfam) (g : grid) : Prop :=
  forall s x, length x = nspec (g_ntrunc g) -> sh_getgrad (sph T g) (flip s (g_ntrunc g) x)
    = (mirror s (fst (sh_getgrad (sph T g) x)), mirror (- s) (snd (sh_getgrad (sph T g) x))).

(** [alike g f F sg s a b]: b is the forcing expression a on the transformed
    sphere.  States are transformed by f, fields by F 1 or F sg (sg is the sign
    that PV and the northward wind acquire), values of the expression by F s.
    Functions have to be transformed in the same way, reference PV and relief are
    transformed fields, a reference Coriolis parameter changes its sign like PV,
    everything else is the same.  Fields that change their sign can only be added
    to such fields; two of them make a field that does not. *)
Inductive alike {K} (g : grid) (f : state K -> state K) (F : R -> mat -> mat) (sg : R) : R -> obj K -> obj K -> Prop :=
| alike_number c : alike g f F sg 1 (PNum c) (PNum c)
| alike_function s h h' : s = 1 \/ s = sg -> gridded_forcing g h -> (s = 1 \/ forall st c, h st <> Ok (FNum c)) ->
    (forall st, s_grid st = g -> length (s_pvs st) = nspec (g_ntrunc g) -> h' (f st) = on_ok (map_value (F s)) (h st)) ->
    alike g f F sg s (PFun h) (PFun h')
| alike_user s h h' : alike g f F sg s (PFun h) (PFun h') -> alike g f F sg s (PUser h) (PUser h')
| alike_sum s a a' b b' : alike g f F sg s a a' -> alike g f F sg s b b' -> alike g f F sg s (PSum a b) (PSum a' b')
| alike_product s t a a' b b' : alike g f F sg s a a' -> alike g f F sg t b b' -> alike g f F sg (s * t) (PProd a b) (PProd a' b')
| alike_switch t : alike g f F sg 1 (PSwitch t) (PSwitch t)
| alike_relaxation rate ref : shaped (g_nlat g) (g_nlon g) ref ->
    alike g f F sg sg (PRelax rate (FMat ref)) (PRelax rate (FMat (F sg ref)))
| alike_orography r r' h w a c : h <> 0 -> orography r' g = on_ok (F 1) (orography r g) ->
    alike g f F sg sg (POrog (mkOrog r h w a c)) (POrog (mkOrog r' h w a (option_map (Rmult sg) c))).
Definition alike_rotated {K} (g : grid) (n : nat) : obj K -> obj K -> Prop :=
  alike g (rotated_by n) (fun _ => rotate_by n (g_nlon g)) 1 1.
Definition alike_reflected {K} (g : grid) : obj K -> obj K -> Prop := alike g reflected mirror (-1) (-1).
