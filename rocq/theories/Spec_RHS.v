(** Specification vocabulary for forcing terms. *)
From Coq Require Export String.
From Verif Require Import Base Model_Grid Model_Spectral Model_Time Model_State Model_Run Model_RHS.
From Coq Require Import List.
Open Scope R_scope.

(** value of a number or field at a gridpoint *)
Definition fat (v : fval) (i j : nat) : R := match v with FNum c => c | FMat m => mget m i j end.
Definition fits (nr nc : nat) (v : fval) : Prop := match v with FNum _ => True | FMat m => shaped nr nc m end.

(** forcing expressions as written in Python, over objects *)
Inductive rhs_expr (K : numtype) := ELeaf (o : obj K) | EAdd (a b : rhs_expr K) | EMul (a b : rhs_expr K).
Arguments ELeaf {K}. Arguments EAdd {K}. Arguments EMul {K}.
(** the object Python builds when it evaluates the expression *)
Fixpoint build {K} (e : rhs_expr K) : res (obj K) :=
  match e with
  | ELeaf o => Ok o
  | EAdd a b => do x <- build a; do y <- build b; op_add x y
  | EMul a b => do x <- build a; do y <- build b; op_mul x y
  end.
Fixpoint leaves {K} (e : rhs_expr K) : list (obj K) :=
  match e with ELeaf o => [o] | EAdd a b => leaves a ++ leaves b | EMul a b => leaves a ++ leaves b end.
(** the number denoted by the expression if its leaves denote numbers *)
Fixpoint expr_value {K} (val : obj K -> R) (e : rhs_expr K) : R :=
  match e with
  | ELeaf o => val o
  | EAdd a b => expr_value val a + expr_value val b
  | EMul a b => expr_value val a * expr_value val b
  end.

Definition strictly_increasing (v : vec) : Prop :=
  forall i j, (i < j)%nat -> (j < length v)%nat -> nth i v 0 < nth j v 0.
Definition strictly_decreasing (v : vec) : Prop :=
  forall i j, (i < j)%nat -> (j < length v)%nat -> nth j v 0 < nth i v 0.

(** [d] is the angular distance in degrees of the longitudes [x] and [y] *)
Definition angular_distance (x y d : R) : Prop :=
  0 <= d <= 180 /\ exists k : Z, x - y = d + 360 * IZR k \/ x - y = - d + 360 * IZR k.

(** results of a history of evaluations: object numbers and states *)
Fixpoint evaluate {K} (T : sphfam) (objects : nat -> orog) (history : list (nat * state K)) (c : cache)
    : list (res fval) * cache :=
  match history with
  | [] => ([], c)
  | (i, s) :: h =>
      let '(r, c) := cached_call T i (objects i) s c in
      let '(rs, c) := evaluate T objects h c in (r :: rs, c)
  end.

(** wind and Coriolis parameter that enter the orographic forcing on grid [g],
    at latitude number i and longitude number j *)
Definition forcing_u {K} (T : sphfam) (g : grid) (o : orog) (s : state K) (i j : nat) : R :=
  match o_wind o with
  | WAct => o_fact o * mget (s_u T s) i j
  | WZon => o_fact o * (Rsum (tab (g_nlon g) (fun j => mget (s_u T s) i j)) / INR (g_nlon g))
  | WSbr => o_fact o * cos (deg2rad (nth i (g_lat g) 0))
  end.
Definition forcing_v {K} (T : sphfam) (o : orog) (s : state K) (i j : nat) : R :=
  match o_wind o with WAct => o_fact o * mget (s_v T s) i j | _ => 0 end.
Definition forcing_f (g : grid) (o : orog) (i : nat) : R :=
  match o_fcor_ref o with None => 2 * g_omega g * sin (deg2rad (nth i (g_lat g) 0)) | Some f => f end.
(** the same term with another wind factor *)
Definition with_fact (o : orog) (f : R) : orog := mkOrog (o_relief o) (o_scale_height o) (o_wind o) f (o_fcor_ref o).
