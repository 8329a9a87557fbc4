(** Specification vocabulary for the stationary wavenumber and the waveguides;
    uses only the data types of the model. *)
From Coq Require Import Reals List.
From Verif Require Import Base Model_Grid Model_Ks Model_Region.
Open Scope R_scope.

(** ** Ks *)
(** squared, complex and real variant of the same number *)
Inductive variants : ext -> ext * ext -> ext -> Prop :=
| var_pos x a : 0 <= x -> 0 <= a -> a * a = x -> variants (Fin x) (Fin a, Fin 0) (Fin a)
| var_neg x b : x < 0 -> 0 < b -> b * b = - x -> variants (Fin x) (Fin 0, Fin b) (Fin (- b))
| var_pinf : variants PInf (PInf, Fin 0) PInf
| var_ninf : variants NInf (Fin 0, PInf) NInf
| var_nan : variants NaN (NaN, NaN) NaN.

(** [v] is the meridional profile (zonal mean) of the array [f] *)
Definition profile_of (g : grid) (f : ndarray) (v : vec) : Prop :=
  length v = g_nlat g
  /\ (f = A1 v
      \/ exists m, f = A2 m /\ shaped (g_nlat g) (g_nlon g) m
           /\ forall i, (i < g_nlat g)%nat -> INR (g_nlon g) * nth i v 0 = Rsum (nth i m nil)).

(** ** Waveguides *)
(** the complex number [z] is [x] (real) or [-x] times i *)
Inductive stands_for : ext * ext -> ext -> Prop :=
| sf_real x : x <> NaN -> stands_for (x, Fin 0) x
| sf_imag y : stands_for (Fin 0, Fin y) (Fin (- y))
| sf_imag_inf : stands_for (Fin 0, PInf) NInf.

(** order of the extended reals, against a real number *)
Definition above (k : R) (a : ext) : Prop := match a with Fin x => k < x | PInf => True | _ => False end.
Definition below (k : R) (a : ext) : Prop := match a with Fin x => x < k | NInf => True | _ => False end.
Definition not_nan (l : list ext) : Prop := Forall (fun a => a <> NaN) l.
Definition all_finite (l : list ext) : Prop := Forall (fun a => exists x, a = Fin x) l.

(** somewhere Ks jumps from minus infinity to a finite value above k *)
Definition jumps (k : R) (ks : list ext) : Prop :=
  exists i x, (S i < length ks)%nat /\ nth i ks NaN = NInf /\ nth (S i) ks NaN = Fin x /\ k < x.

(** intervals (start, end) from north to south below [top] *)
Fixpoint north_to_south (top : R) (l : list (R * R)) : Prop :=
  match l with
  | nil => True
  | cons (s, e) l' => s <= top /\ e <= s /\ -90 <= e /\ north_to_south e l'
  end.
(** the boundaries are the numbers in [l] *)
Definition intervals (l : list (R * R)) : list (ext * ext) := map (fun p => (Fin (fst p), Fin (snd p))) l.

(** (b, k) lies on the line segment from (y, a) to (y', a') *)
Definition on_segment (k b y a y' a' : R) : Prop :=
  exists t, 0 <= t <= 1 /\ b = (1 - t) * y + t * y' /\ k = (1 - t) * a + t * a'.
(** crossing of [k] between two neighbouring grid latitudes y > y'; with an
    infinite value on one side it is at the other side's latitude, with two
    infinite values at one of the two latitudes *)
Definition crossing (k b y : R) (a : ext) (y' : R) (a' : ext) : Prop :=
  match a, a' with
  | Fin x, Fin x' => on_segment k b y x y' x'
  | Fin _, _ => b = y
  | _, Fin _ => b = y'
  | _, _ => b = y \/ b = y'
  end.
