(** Model of Grid.derivative_meridional (src/barotropic/grid.py:296-343). *)
From Coq Require Export String.
From Verif Require Export Base Model_Grid Model_Region.

(** The order argument: None, a number (2 == 2.0), or some other object. *)
Inductive order_arg := ONone | ONum (x : R) | OOther.

(** Row [i] of the array [out] before the division, for a column [f] of [n]
    values.  grid.py:321-326 (order 2) *)
Definition stencil2 (n : nat) (f : nat -> R) (i : nat) : R :=
  if Nat.eqb i 0 then - 3 * f 0%nat + 4 * f 1%nat - f 2%nat
  else if Nat.eqb i (n - 1) then f (n - 3)%nat - 4 * f (n - 2)%nat + 3 * f (n - 1)%nat
  else f (i + 1)%nat - f (i - 1)%nat.
(** grid.py:330-340 (order 4) *)
Definition stencil4 (n : nat) (f : nat -> R) (i : nat) : R :=
  if Nat.eqb i 0 then
    - 25 * f 0%nat + 48 * f 1%nat - 36 * f 2%nat + 16 * f 3%nat - 3 * f 4%nat
  else if Nat.eqb i 1 then
    - 3 * f 0%nat - 10 * f 1%nat + 18 * f 2%nat - 6 * f 3%nat + f 4%nat
  else if Nat.eqb i (n - 1) then
    3 * f (n - 5)%nat - 16 * f (n - 4)%nat + 36 * f (n - 3)%nat - 48 * f (n - 2)%nat + 25 * f (n - 1)%nat
  else if Nat.eqb i (n - 2) then
    - f (n - 5)%nat + 6 * f (n - 4)%nat - 18 * f (n - 3)%nat + 10 * f (n - 2)%nat + 3 * f (n - 1)%nat
  else f (i - 2)%nat - 8 * f (i - 1)%nat + 8 * f (i + 1)%nat - f (i + 2)%nat.

(** rows 0 and n-1 stay zero for 1D input (grid.py:324, 337) *)
Definition is_pole (n i : nat) : bool := Nat.eqb i 0 || Nat.eqb i (n - 1).

(** Grid.derivative_meridional, grid.py:296-343.  The asserts (:319, :329) look
    at the grid, not at the array; an array with too few rows raises IndexError
    where a missing row is accessed.  A 0-dimensional array or one with more
    than two dimensions is [AOther] (IndexError resp. AssertionError). *)
Definition derivative_meridional (g : grid) (f : ndarray) (order : order_arg) : res ndarray :=
  let is2 := match order with ONum x => Reqb x 2 | _ => false end in
  let is4 := match order with ONum x => Reqb x 4 | ONone => true | OOther => false end in
  match f with
  | AOther => Err AssertionError
  | A1 v =>
      let n := length v in
      let col := fun k => nth k v 0 in
      if is2 then
        passert (Nat.leb 3 (g_nlat g))
          (Ok (A1 (tab n (fun i => (if is_pole n i then 0 else stencil2 n col i) / 2 / g_dphi g))))
      else if is4 then
        passert (Nat.leb 5 (g_nlat g))
          (if Nat.ltb n 5 then Err IndexError
           else Ok (A1 (tab n (fun i => (if is_pole n i then 0 else stencil4 n col i) / 12 / g_dphi g))))
      else Err NotImplementedError
  | A2 m =>
      let n := length m in
      let nc := ncols m in
      let col := fun j k => mget m k j in
      if is2 then
        passert (Nat.leb 3 (g_nlat g))
          (if Nat.ltb n 3 then Err IndexError
           else Ok (A2 (mat_of n nc (fun i j => stencil2 n (col j) i / 2 / g_dphi g))))
      else if is4 then
        passert (Nat.leb 5 (g_nlat g))
          (if Nat.ltb n 5 then Err IndexError
           else Ok (A2 (mat_of n nc (fun i j => stencil4 n (col j) i / 12 / g_dphi g))))
      else Err NotImplementedError
  end.
