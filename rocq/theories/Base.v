(** Common vocabulary of the model: Python exceptions as values, real-number
    comparisons as booleans, 1D/2D arrays as lists.  Definitions only.

    Python/NumPy floats are modelled as exact reals; 1D arrays as [list R];
    2D arrays as lists of rows (axis MERIDIONAL = -2 = rows, ZONAL = -1 =
    columns, constants.py:6-7). *)
From Coq Require Export Reals List ZArith Bool.
Export ListNotations.
Open Scope R_scope.

(** Python exception classes raised by the modelled code.  [OutOfFuel] and
    [NotANumber] are not Python exceptions: the first marks a loop that has not
    finished within the fuel given to the model, the second a computation that
    yields NaN in NumPy and hence has no value in [R]. *)
Inductive exn : Set :=
| AssertionError | ValueError | IndexError | TypeError | KeyError
| NameError | AttributeError | NotImplementedError | ZeroDivisionError
| OutOfFuel | NotANumber.

Inductive res (A : Type) : Type :=
| Ok (a : A)
| Err (e : exn).
Arguments Ok {A} a.
Arguments Err {A} e.

Definition bind {A B} (r : res A) (f : A -> res B) : res B :=
  match r with Ok a => f a | Err e => Err e end.
Notation "'do' x <- r ; k" := (bind r (fun x => k))
  (at level 200, x pattern, r at level 100, k at level 200).

(** [assert c, k]: Python's assert statement. *)
Definition passert {A} (c : bool) (k : res A) : res A :=
  if c then k else Err AssertionError.

(** map with exceptions: the first error (in list order) is the result. *)
Fixpoint res_map {A B} (f : A -> res B) (l : list A) : res (list B) :=
  match l with
  | [] => Ok []
  | a :: l' => do b <- f a; do bs <- res_map f l'; Ok (b :: bs)
  end.

(** Comparisons of floats as booleans. *)
Definition Rleb (x y : R) : bool := if Rle_dec x y then true else false.
Definition Rltb (x y : R) : bool := if Rlt_dec x y then true else false.
Definition Reqb (x y : R) : bool := if Req_EM_T x y then true else false.

(** np.isclose(a, b) with the default tolerances rtol=1e-5, atol=1e-8
    (NumPy documentation: |a - b| <= atol + rtol * |b|). *)
Definition isclose_tol (atol rtol a b : R) : bool :=
  Rleb (Rabs (a - b)) (atol + rtol * Rabs b).
Definition isclose (a b : R) : bool := isclose_tol (/ 100000000) (/ 100000) a b.

(** Arrays *)
Notation vec := (list R).
Notation mat := (list (list R)).

(** [tab n f] = the array [f 0, ..., f (n-1)]. *)
Definition tab {A} (n : nat) (f : nat -> A) : list A := map f (seq 0 n).
Definition vnth (v : vec) (i : nat) : R := nth i v 0.
Definition mget (m : mat) (i j : nat) : R := nth j (nth i m []) 0.
Definition mcol (m : mat) (j : nat) : vec := map (fun r => nth j r 0) m.
(** number of columns, as in numpy's field.shape[1] for a field with rows *)
Definition ncols (m : mat) : nat := match m with [] => 0%nat | r :: _ => length r end.
Definition mat_of (nr nc : nat) (f : nat -> nat -> R) : mat :=
  tab nr (fun i => tab nc (fun j => f i j)).
(** shape predicate: [nr] rows of [nc] columns *)
Definition shaped {A} (nr nc : nat) (m : list (list A)) : Prop :=
  length m = nr /\ Forall (fun r => length r = nc) m.
Definition shapedb {A} (nr nc : nat) (m : list (list A)) : bool :=
  Nat.eqb (length m) nr && forallb (fun r => Nat.eqb (length r) nc) m.

(** np.sum of a 1D / 2D array (order of summation is irrelevant over R) *)
Definition Rsum (l : vec) : R := fold_right Rplus 0 l.
Definition msum (m : mat) : R := Rsum (map Rsum m).
(** np.mean of a non-empty 1D array *)
Definition vmean (l : vec) : R := Rsum l / INR (length l).

Fixpoint map2 {A B C} (f : A -> B -> C) (l : list A) (m : list B) : list C :=
  match l, m with
  | a :: l', b :: m' => f a b :: map2 f l' m'
  | _, _ => []
  end.
Definition vadd : vec -> vec -> vec := map2 Rplus.
Definition vsub : vec -> vec -> vec := map2 Rminus.
Definition vmul : vec -> vec -> vec := map2 Rmult.
Definition vscale (c : R) (v : vec) : vec := map (Rmult c) v.
Definition madd : mat -> mat -> mat := map2 vadd.
Definition msub : mat -> mat -> mat := map2 vsub.
Definition mmul : mat -> mat -> mat := map2 vmul.
Definition mscale (c : R) (m : mat) : mat := map (vscale c) m.
Definition mmap (f : R -> R) (m : mat) : mat := map (map f) m.

(** consecutive pairs (a0,a1), (a1,a2), ... : numpy's zip(x[:-1], x[1:]) *)
Fixpoint pairs {A} (l : list A) : list (A * A) :=
  match l with
  | a :: ((b :: _) as t) => (a, b) :: pairs t
  | _ => []
  end.
(** np.diff *)
Definition vdiff (v : vec) : vec := map (fun p => snd p - fst p) (pairs v).

(** np.min / np.max of a non-empty array *)
Definition vmin (v : vec) : R := match v with [] => 0 | x :: t => fold_left Rmin t x end.
Definition vmax (v : vec) : R := match v with [] => 0 | x :: t => fold_left Rmax t x end.
Definition mmin (m : mat) : R := vmin (concat m).
Definition mmax (m : mat) : R := vmax (concat m).

(** np.roll of a 1D array by k >= 0 places: out[(i + k) mod n] = l[i] *)
Definition roll {A} (l : list A) (k : nat) : list A :=
  let n := length l in
  match n with
  | O => l
  | _ => let s := (n - k mod n)%nat in skipn s l ++ firstn s l
  end.

(** degrees <-> radians: np.deg2rad, np.rad2deg *)
Definition deg2rad (d : R) : R := d * PI / 180.
Definition rad2deg (x : R) : R := x * 180 / PI.

(** Python's int(x) for floats: truncation toward zero *)
Definition py_int (x : R) : Z :=
  if Rle_dec 0 x then Int_part x else (- Int_part (- x))%Z.
