(** Arrays of machine integers: additions, subtractions and multiplications are
    modulo a power of two.  The places where the code computes with the type of its
    input are Grid.derivative_meridional (src/barotropic/grid.py:315-343), the
    differences in Grid.quad_meridional (:539-558) and in Grid.zonalize (:624-648).
    Divisions of integers and all operations with floats give floats; that large
    integers are rounded to floats is not modelled. *)
From Coq Require Export String.
From Verif Require Export Base Model_Grid Model_Region Model_Deriv Model_Quad.

(** NumPy's integer types of w bits *)
Inductive itype := Signed (w : Z) | Unsigned (w : Z).
Definition wrap (t : itype) (x : Z) : Z :=
  match t with
  | Unsigned w => x mod 2 ^ w
  | Signed w => (x + 2 ^ (w - 1)) mod 2 ^ w - 2 ^ (w - 1)
  end.

Notation zvec := (list Z).
Notation zmat := (list (list Z)).
Definition zget (m : zmat) (i j : nat) : Z := nth j (nth i m []) 0%Z.
Definition zcol (m : zmat) (j : nat) : zvec := map (fun r => nth j r 0%Z) m.
Definition zncols (m : zmat) : nat := match m with [] => 0%nat | r :: _ => List.length r end.
Definition floats (v : zvec) : vec := map IZR v.
Definition mfloats (m : zmat) : mat := map floats m.
Inductive zarray := Z1 (v : zvec) | Z2 (m : zmat).

(** ** Grid.derivative_meridional, grid.py:296-343 *)
Section Ops.
Variable t : itype.
Let add (a b : Z) : Z := wrap t (a + b).
Let sub (a b : Z) : Z := wrap t (a - b).
Let mul (a b : Z) : Z := wrap t (a * b).
(** grid.py:321-326; the minus sign in front of the 3 belongs to the number *)
Definition zstencil2 (n : nat) (f : nat -> Z) (i : nat) : Z :=
  if Nat.eqb i 0 then sub (add (mul (-3) (f 0%nat)) (mul 4 (f 1%nat))) (f 2%nat)
  else if Nat.eqb i (n - 1) then add (sub (f (n - 3)%nat) (mul 4 (f (n - 2)%nat))) (mul 3 (f (n - 1)%nat))
  else sub (f (i + 1)%nat) (f (i - 1)%nat).
(** grid.py:330-340; -f[-5] is the negative in the type of f *)
Definition zstencil4 (n : nat) (f : nat -> Z) (i : nat) : Z :=
  if Nat.eqb i 0 then
    sub (add (sub (add (mul (-25) (f 0%nat)) (mul 48 (f 1%nat))) (mul 36 (f 2%nat))) (mul 16 (f 3%nat))) (mul 3 (f 4%nat))
  else if Nat.eqb i 1 then
    add (sub (add (sub (mul (-3) (f 0%nat)) (mul 10 (f 1%nat))) (mul 18 (f 2%nat))) (mul 6 (f 3%nat))) (f 4%nat)
  else if Nat.eqb i (n - 1) then
    add (sub (add (sub (mul 3 (f (n - 5)%nat)) (mul 16 (f (n - 4)%nat))) (mul 36 (f (n - 3)%nat))) (mul 48 (f (n - 2)%nat))) (mul 25 (f (n - 1)%nat))
  else if Nat.eqb i (n - 2) then
    add (add (sub (add (wrap t (- f (n - 5)%nat)) (mul 6 (f (n - 4)%nat))) (mul 18 (f (n - 3)%nat))) (mul 10 (f (n - 2)%nat))) (mul 3 (f (n - 1)%nat))
  else sub (add (sub (f (i - 2)%nat) (mul 8 (f (i - 1)%nat))) (mul 8 (f (i + 1)%nat))) (f (i + 2)%nat).
End Ops.

(** For signed types of at least 8 bits, which hold all factors.  (With unsigned
    types the products with negative factors depend on the version of NumPy.) *)
Definition derivative_signed (w : Z) (g : grid) (f : zarray) (order : order_arg) : res ndarray :=
  let is2 := match order with ONum x => Reqb x 2 | _ => false end in
  let is4 := match order with ONum x => Reqb x 4 | ONone => true | OOther => false end in
  match f with
  | Z1 v =>
      let n := List.length v in
      let col := fun k => nth k v 0%Z in
      if is2 then
        passert (Nat.leb 3 (g_nlat g))
          (Ok (A1 (tab n (fun i => IZR (if is_pole n i then 0 else zstencil2 (Signed w) n col i) / 2 / g_dphi g))))
      else if is4 then
        passert (Nat.leb 5 (g_nlat g))
          (if Nat.ltb n 5 then Err IndexError
           else Ok (A1 (tab n (fun i => IZR (if is_pole n i then 0 else zstencil4 (Signed w) n col i) / 12 / g_dphi g))))
      else Err NotImplementedError
  | Z2 m =>
      let n := List.length m in
      let nc := zncols m in
      let col := fun j k => zget m k j in
      if is2 then
        passert (Nat.leb 3 (g_nlat g))
          (if Nat.ltb n 3 then Err IndexError
           else Ok (A2 (mat_of n nc (fun i j => IZR (zstencil2 (Signed w) n (col j) i) / 2 / g_dphi g))))
      else if is4 then
        passert (Nat.leb 5 (g_nlat g))
          (if Nat.ltb n 5 then Err IndexError
           else Ok (A2 (mat_of n nc (fun i j => IZR (zstencil4 (Signed w) n (col j) i) / 12 / g_dphi g))))
      else Err NotImplementedError
  end.
(** order 2 and one dimension: no negative factors (grid.py:323), all types *)
Definition derivative_profile2 (t : itype) (g : grid) (v : zvec) : res vec :=
  let n := List.length v in
  passert (Nat.leb 3 (g_nlat g))
    (Ok (tab n (fun i => IZR (if is_pole n i then 0 else zstencil2 t n (fun k => nth k v 0%Z) i) / 2 / g_dphi g))).

(** ** Grid.quad_meridional, grid.py:486-573 *)
(** grid.py:535-570, one interval of one meridian; dy and zr - zl are differences
    of integers *)
Definition zseg_trapz (ty tz : itype) (rs : R) (l r : R * (Z * Z)) : R :=
  let xl := fst l in let yl := fst (snd l) in let zl := snd (snd l) in
  let xr := fst r in let yr := fst (snd r) in let zr := snd (snd r) in
  let dx := xr - xl in
  let dy := IZR (wrap ty (yr - yl)) in
  let dz := IZR (wrap tz (zr - zl)) in
  let aa := dy / dx in
  let bb := IZR yl - aa * xl in
  let nonneg_l := Z.leb 0 zl in
  let nonneg_r := Z.leb 0 zr in
  let xs := if negb nonneg_l && nonneg_r then xl - IZR zl / dz * dx else xl in
  let xe := if nonneg_l && negb nonneg_r then xr - IZR zr / dz * dx else xr in
  let trapz := rs * (aa * (cos xs - cos xe) + (aa * xs + bb) * sin xs - (aa * xe + bb) * sin xe) in
  if nonneg_l || nonneg_r then trapz else 0.
Definition zcol_trapz (ty tz : itype) (rs : R) (x : vec) (y z : zvec) : R :=
  Rsum (map (fun p => zseg_trapz ty tz rs (fst p) (snd p)) (pairs (combine x (combine y z)))).
(** y of the type ty and z of the type tz; without z, the ones have the type of y
    (grid.py:532).  Boxcounting multiplies with floats (:520). *)
Definition zquad_meridional (ty tz : itype) (g : grid) (y : zmat) (z : option zmat) (method : string) : res vec :=
  if is_sptrapz method then
    passert (Nat.eqb (List.length y) (g_nlat g))
    (let nc := zncols y in
     let zz := match z with Some zm => zm | None => map (map (fun _ => 1%Z)) y end in
     let tz := match z with Some _ => tz | None => ty end in
     if Nat.leb nc (g_nlon g) then
       if shapedb (g_nlat g) nc zz then
         Ok (tab nc (fun j => zcol_trapz ty tz (g_rsphere g) (g_phi g) (zcol y j) (zcol zz j)))
       else Err IndexError
     else Err ValueError)
  else quad_meridional g (A2 (mfloats y)) (option_map mfloats z) method.
(** grid.py:471-484 *)
Definition zquad (ty tz : itype) (g : grid) (y : zmat) (z : option zmat) (method : string) : res R :=
  do q <- zquad_meridional ty tz g y z method;
  Ok (g_rsphere g * g_dlam g * Rsum q).

(** ** Grid.zonalize with interpolate=False, grid.py:599-660 *)
(** A number of levels, grid.py:636-642: q_max - q_min is a difference of integers.
    The field minus a level is a float then, and the ones are integers without
    differences. *)
Definition zauto_levels (t : itype) (qmin qmax : Z) (n : nat) : vec :=
  map (fun s => / 2 * (IZR (wrap t (qmax - qmin)) * sin (/ 2 * PI * s) + IZR qmin + IZR qmax))
      (firstn n (tl (linspace_end (-1) 1 (n + 2)))).
Definition zmin (m : zmat) : Z := match concat m with [] => 0%Z | x :: t => fold_left Z.min t x end.
Definition zmax (m : zmat) : Z := match concat m with [] => 0%Z | x :: t => fold_left Z.max t x end.
Definition zonalize_number (t : itype) (g : grid) (field : zmat) (levels : option Z) (qd : string) : res (vec * vec) :=
  if Nat.eqb (List.length field) 0 || Nat.eqb (zncols field) 0 then Err ValueError
  else
    let n := match levels with None => (g_nlat g * (if is_boxcount qd then 2 else 1))%nat | Some n => Z.to_nat n end in
    zonalize_contours g (mfloats field) (LArr (zauto_levels t (zmin field) (zmax field) n)) qd.
(** Integer levels that fit into the type of the field, grid.py:644-648:
    np.vectorize hands them over as Python integers, the difference has the type
    of the field *)
Definition zonalize_integers (t : itype) (g : grid) (field : zmat) (levels : zvec) (qd : string) : res (vec * vec) :=
  if Nat.eqb (List.length field) 0 || Nat.eqb (zncols field) 0 then Err ValueError
  else
    match levels with
    | [] => Err ValueError
    | _ =>
      do area <- res_map (fun thresh =>
                   zquad t t g (map (map (fun _ => 1%Z)) field) (Some (map (map (fun x => wrap t (x - thresh))) field)) qd) levels;
      let area_factor := INR (g_nlon g) / INR (zncols field) in
      do y <- equivalent_latitude g (AArr (map (fun a => a * area_factor) area));
      Ok (floats levels, y)
    end.
