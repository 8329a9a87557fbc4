(** Model of the functions that fill, overwrite or change parts of an array with
    item assignment (src/barotropic/grid.py:319-342, 379-383, 416-432, 524-570,
    592-597, 954-959, 982-1000; src/barotropic/diagnostics.py:26-28, 296-303),
    statement by statement.

    The memory is a list of cells.  An array is the list of the addresses of its
    elements (2D: the list of the addresses of every row), so basic slicing gives
    other arrays with the same cells while indexing with lists of positions or with
    masks gives values.  Values of intermediate expressions have no addresses. *)
From Coq Require Export String.
From Verif Require Export Base Model_Grid Model_Region Model_Deriv Model_Quad Model_Spectral Model_Fourier Model_Ranges Model_Ks.
From Coquelicot Require Import Coquelicot.
From Coq Require Import List Reals.
Import ListNotations.
Open Scope R_scope.

Notation arr := (list nat).
Notation arr2 := (list (list nat)).

(** programs on cells of type A: may change the memory and may raise *)
Definition prog (A B : Type) : Type := list A -> list A * res B.
Definition pret {A B} (x : B) : prog A B := fun m => (m, Ok x).
Definition praise {A B} (e : exn) : prog A B := fun m => (m, Err e).
Definition pbind {A B C} (p : prog A B) (k : B -> prog A C) : prog A C := fun m =>
  match p m with (m', Ok x) => k x m' | (m', Err e) => (m', Err e) end.
Notation "'let*' x := p 'in' k" := (pbind p (fun x => k)) (at level 200, x pattern, p at level 100, k at level 200).
Definition lift {A B} (r : res B) : prog A B := fun m => (m, r).
Definition check {A} (c : bool) (e : exn) : prog A unit := if c then pret tt else praise e.

(** values of the elements of an array; addresses always exist *)
Definition load {A} (d : A) (a : arr) : prog A (list A) := fun m => (m, Ok (map (fun p => nth p m d) a)).
Definition load2 {A} (d : A) (a : arr2) : prog A (list (list A)) := fun m => (m, Ok (map (map (fun p => nth p m d)) a)).

(** new arrays *)
Definition alloc {A} (l : list A) : prog A arr := fun m => (m ++ l, Ok (seq (length m) (length l))).
Fixpoint rows_at {A} (p : nat) (l : list (list A)) : arr2 :=
  match l with [] => [] | r :: l => seq p (length r) :: rows_at (p + length r) l end.
Definition alloc2 {A} (l : list (list A)) : prog A arr2 := fun m => (m ++ concat l, Ok (rows_at (length m) l)).

(** writes one value after the other *)
Fixpoint poke {A} (p : nat) (x : A) (m : list A) : list A :=
  match m, p with
  | [], _ => []
  | _ :: m, O => x :: m
  | y :: m, S p => y :: poke p x m
  end.
Fixpoint pokes {A} (a : arr) (v : list A) (m : list A) : list A :=
  match a, v with p :: a, x :: v => pokes a v (poke p x m) | _, _ => m end.
(** a[...] = v: ValueError unless the shapes agree *)
Definition assign {A} (a : arr) (v : list A) : prog A unit := fun m =>
  if Nat.eqb (length a) (length v) then (pokes a v m, Ok tt) else (m, Err ValueError).
Definition assign2 {A} (a : arr2) (v : list (list A)) : prog A unit := fun m =>
  if Nat.eqb (length a) (length v) && forallb (fun p => Nat.eqb (length (fst p)) (length (snd p))) (combine a v)
  then (pokes (concat a) (concat v) m, Ok tt) else (m, Err ValueError).
(** a[...] = x for a number x *)
Definition fill {A} (a : arr) (x : A) : prog A unit := assign a (map (fun _ => x) a).

(** basic slicing l[i:j] *)
Definition sl {X} (i j : option Z) (l : list X) : list X :=
  let n := length l in
  let a := match i with Some i => slice_pos n i | None => 0%nat end in
  let b := match j with Some j => slice_pos n j | None => n end in
  firstn (b - a) (skipn a l).
(** l[i] *)
Definition item {X} (l : list X) (i : Z) : res X :=
  let k := if (i <? 0)%Z then (i + Z.of_nat (length l))%Z else i in
  if (k <? 0)%Z then Err IndexError
  else match nth_error l (Z.to_nat k) with Some x => Ok x | None => Err IndexError end.
(** l[mask] for a mask of the same shape *)
Fixpoint compress {X} (mask : list bool) (l : list X) : list X :=
  match mask, l with
  | b :: mask, x :: l => if b then x :: compress mask l else compress mask l
  | _, _ => []
  end.
Definition compress2 {X} (mask : list (list bool)) (l : list (list X)) : list X := compress (concat mask) (concat l).

(** ** Grid.derivative_meridional, grid.py:316-343.  Rows [f[i,...]] of a 1D array
    are arrays with one element here. *)
Definition row (f : arr2) (i : Z) : prog R vec := let* a := lift (item f i) in load 0 a.
Definition set_row (out : arr2) (i : Z) (v : vec) : prog R unit := let* a := lift (item out i) in assign a v.
Definition derivative_inplace (g : grid) (ndim : nat) (f : arr2) (order : order_arg) : prog R arr2 :=
  let is2 := match order with ONum x => Reqb x 2 | _ => false end in
  let is4 := match order with ONum x => Reqb x 4 | ONone => true | OOther => false end in
  let* _ := check (Nat.leb ndim 2) AssertionError in                                     (* :317 *)
  let* f0 := load2 0 f in
  let* out := alloc2 (mmap (fun _ => 0) f0) in                                           (* :319 *)
  if is2 then
    let* _ := check (Nat.leb 3 (g_nlat g)) AssertionError in                             (* :321 *)
    let* fs := load2 0 (sl (Some 2%Z) None f) in
    let* fn := load2 0 (sl None (Some (-2)%Z) f) in
    let* _ := assign2 (sl (Some 1%Z) (Some (-1)%Z) out) (msub fs fn) in                  (* :323 *)
    let* _ :=
      (if Nat.eqb ndim 1 then pret tt
       else
         let* a := row f 0 in let* b := row f 1 in let* c := row f 2 in
         let* _ := set_row out 0 (vsub (vadd (vscale (-3) a) (vscale 4 b)) c) in         (* :326 *)
         let* a := row f (-3) in let* b := row f (-2) in let* c := row f (-1) in
         set_row out (-1) (vadd (vsub a (vscale 4 b)) (vscale 3 c))) in                  (* :327 *)
    let* o := load2 0 out in
    alloc2 (mmap (fun x => x / 2 / g_dphi g) o)                                          (* :328 *)
  else if is4 then
    let* _ := check (Nat.leb 5 (g_nlat g)) AssertionError in                             (* :330 *)
    let* f0 := row f 0 in let* f1 := row f 1 in let* f2 := row f 2 in let* f3 := row f 3 in let* f4 := row f 4 in
    let* _ := set_row out 1
      (vadd (vsub (vadd (vsub (vscale (-3) f0) (vscale 10 f1)) (vscale 18 f2)) (vscale 6 f3)) f4) in      (* :332 *)
    let* a := load2 0 (sl None (Some (-4)%Z) f) in
    let* b := load2 0 (sl (Some 1%Z) (Some (-3)%Z) f) in
    let* c := load2 0 (sl (Some 3%Z) (Some (-1)%Z) f) in
    let* d := load2 0 (sl (Some 4%Z) None f) in
    let* _ := assign2 (sl (Some 2%Z) (Some (-2)%Z) out) (msub (madd (msub a (mscale 8 b)) (mscale 8 c)) d) in   (* :334 *)
    let* e5 := row f (-5) in let* e4 := row f (-4) in let* e3 := row f (-3) in let* e2 := row f (-2) in let* e1 := row f (-1) in
    let* _ := set_row out (-2)
      (vadd (vadd (vsub (vadd (vscale (-1) e5) (vscale 6 e4)) (vscale 18 e3)) (vscale 10 e2)) (vscale 3 e1)) in    (* :336 *)
    let* _ :=
      (if Nat.eqb ndim 1 then pret tt
       else
         let* _ := set_row out 0
           (vsub (vadd (vsub (vadd (vscale (-25) f0) (vscale 48 f1)) (vscale 36 f2)) (vscale 16 f3)) (vscale 3 f4)) in   (* :339 *)
         set_row out (-1)
           (vadd (vsub (vadd (vsub (vscale 3 e5) (vscale 16 e4)) (vscale 36 e3)) (vscale 48 e2)) (vscale 25 e1))) in     (* :340 *)
    let* o := load2 0 out in
    alloc2 (mmap (fun x => x / 12 / g_dphi g) o)                                         (* :342 *)
  else praise NotImplementedError.

(** the same for a 1D array *)
Definition derivative1_inplace (g : grid) (f : arr) (order : order_arg) : prog R arr :=
  let* out := derivative_inplace g 1 (map (fun p => p :: nil) f) order in pret (concat out).

(** ** Grid.solve_poisson_spectral, grid.py:379-383 *)
Definition poisson_inplace (g : grid) (rhs_spec : arr) (op_add : R) : prog Complex.C arr :=
  let* r := load (RtoC 0) rhs_spec in
  let* solution := alloc (map (fun _ => RtoC 0) r) in
  let* r := load (RtoC 0) (sl (Some 1%Z) None rhs_spec) in
  let* _ := assign (sl (Some 1%Z) None solution)
              (map2 (fun c l => Cdiv (Copp c) (RtoC (l + op_add))) r (sl (Some 1%Z) None (laplacian_eigenvalues g))) in
  pret solution.

(** ** Grid.gridpoint_area, grid.py:423-432; [phi] are the grid's latitudes in
    radians *)
Definition imul (a : arr) (v : vec) : prog R unit := let* x := load 0 a in assign a (vmul x v).
Definition imul_item (a : arr) (i : Z) (x : R) : prog R unit := let* p := lift (item a i) in imul (p :: nil) (x :: nil).
Definition area_inplace (g : grid) (phi : arr) : prog R arr :=
  let* s := load 0 (sl (Some 1%Z) None phi) in
  let* n := load 0 (sl None (Some (-1)%Z) phi) in
  let mid_phi := vscale (/ 2) (vadd s n) in                                              (* :424 *)
  let* area := alloc (repeat (g_rsphere g * g_rsphere g * g_dlam g) (g_nlat g)) in       (* :426 *)
  let* _ := imul (sl (Some 1%Z) (Some (-1)%Z) area)
              (vsub (map sin (sl None (Some (-1)%Z) mid_phi)) (map sin (sl (Some 1%Z) None mid_phi))) in   (* :428 *)
  let* first := lift (item mid_phi 0) in
  let* _ := imul_item area 0 (1 - sin first) in                                          (* :430 *)
  let* end_ := lift (item mid_phi (-1)) in
  let* _ := imul_item area (-1) (1 + sin end_) in                                        (* :431 *)
  pret area.

(** ** The sptrapz part of Grid.quad_meridional, grid.py:524-570, for fields with
    the latitudes of the grid; [phi2] is the grid's array *)
Definition map2m {X Y Z} (f : X -> Y -> Z) : list (list X) -> list (list Y) -> list (list Z) := map2 (map2 f).
(** np.sum(a, where=mask, axis=MERIDIONAL) *)
Definition sum_where (nc : nat) (a : mat) (mask : list (list bool)) : vec :=
  tab nc (fun j => Rsum (map2 (fun r b => if nth j b false then nth j r 0 else 0) a mask)).
Definition trapz_parts (g : grid) (nc : nat) (x y z : arr2) : prog R arr :=
  let js {X} : list X -> list X := sl None (Some (-1)%Z) in
  let je {X} : list X -> list X := sl (Some 1%Z) None in
  let* x_js := load2 0 (js x) in let* x_je := load2 0 (je x) in
  let* y_js := load2 0 (js y) in let* y_je := load2 0 (je y) in
  let dx := msub x_je x_js in
  let dy := msub y_je y_js in
  let aa := map2m Rdiv dy dx in
  let bb := msub y_js (mmul aa x_js) in
  let* zv := load2 0 z in
  let* z_js := load2 0 (js z) in let* z_je := load2 0 (je z) in
  let nonneg := map (map (Rleb 0)) zv in
  let interp_start := map2m (fun l r => negb l && r) (js nonneg) (je nonneg) in          (* :545 *)
  let zl := compress2 interp_start z_js in
  let zr := compress2 interp_start z_je in
  let* xs := alloc2 x_js in                                                              (* :549, copy *)
  let* xs_m := load 0 (compress2 interp_start xs) in
  let* _ := assign (compress2 interp_start xs)
              (vsub xs_m (vmul (map2 Rdiv zl (vsub zr zl)) (compress2 interp_start dx))) in   (* :550 *)
  let interp_end := map2m (fun l r => l && negb r) (js nonneg) (je nonneg) in            (* :553 *)
  let zl := compress2 interp_end z_js in
  let zr := compress2 interp_end z_je in
  let* xe := alloc2 x_je in                                                              (* :557, copy *)
  let* xe_m := load 0 (compress2 interp_end xe) in
  let* _ := assign (compress2 interp_end xe)
              (vsub xe_m (vmul (map2 Rdiv zr (vsub zr zl)) (compress2 interp_end dx))) in     (* :558 *)
  let* xs := load2 0 xs in
  let* xe := load2 0 xe in
  let trapz := mscale (g_rsphere g)
    (msub (madd (mmul aa (msub (mmap cos xs) (mmap cos xe))) (mmul (madd (mmul aa xs) bb) (mmap sin xs)))
          (mmul (madd (mmul aa xe) bb) (mmap sin xe))) in
  alloc (sum_where nc trapz (map2m orb (js nonneg) (je nonneg))).                        (* :570 *)
Definition trapz_inplace (g : grid) (phi2 : arr2) (y : arr2) (z : option arr2) : prog R arr :=
  let nc := match y with [] => 0%nat | r :: _ => length r end in
  let x := map (firstn nc) phi2 in                                                       (* :527 *)
  let* yv := load2 0 y in
  let* z := match z with Some z => pret z | None => alloc2 (mmap (fun _ => 1) yv) end in (* :529-530 *)
  trapz_parts g nc x y z.

(** ** Grid.equivalent_latitude, grid.py:592-597, for an array *)
Definition eqlat_inplace (g : grid) (area : arr) : prog R arr :=
  let* a := load 0 area in
  let* sine := alloc (map (fun a => 1 - / 2 * a / PI / (g_rsphere g * g_rsphere g)) a) in
  let* s := load 0 sine in
  let* _ := fill (compress (map (fun s => Rleb 1 s) s) sine) 1 in
  let* s := load 0 sine in
  let* _ := fill (compress (map (fun s => Rleb s (-1)) s) sine) (-1) in
  let* s := load 0 sine in
  alloc (map (fun s => rad2deg (asin s)) s).

(** ** GridRegion.mask, grid.py:954-959: np.ix_ selects rows, then columns *)
Definition take {X} (l : list X) (idx : list nat) : res (list X) :=
  res_map (fun i => match nth_error l i with Some x => Ok x | None => Err IndexError end) idx.
Definition mask_inplace (rg : region) : prog bool arr2 :=
  let* mask := alloc2 (repeat (repeat false (g_nlon (rg_grid rg))) (g_nlat (rg_grid rg))) in
  let* rows := lift (take mask (rg_lat_idx rg)) in
  let* cells := lift (res_map (fun r => take r (rg_lon_idx rg)) rows) in
  let* _ := fill (concat cells) true in
  pret mask.

(** ** GridRegion.lon_mono, grid.py:995-1000; [lon] are the grid's longitudes,
    and indexing with the array of indices makes a copy (:980) *)
Definition lon_mono_inplace (rg : region) (lon : arr) : prog R arr :=
  let* cells := lift (take lon (rg_lon_idx rg)) in
  let* v := load 0 cells in
  let* lon := alloc v in
  let* v := load 0 lon in
  let jump := filter (fun i => Rltb (nth i (vdiff v) 0) 0) (seq 0 (length (vdiff v))) in
  let* _ := check (Nat.leb (length jump) 1) AssertionError in
  let* _ :=
    match jump with
    | j :: nil =>
        let head := sl None (Some (Z.of_nat j + 1)%Z) lon in
        let* x := load 0 head in assign head (map (fun x => x - 360) x)
    | _ => pret tt
    end in
  pret lon.

(** ** _restrict_fourier_zonal, diagnostics.py:26-29: the coefficients, for bounds
    that are integers *)
Definition restrict_inplace (field : mat) (kmin kmax : Z) : prog cplx arr2 :=
  let* rows := lift (res_map rfft field) in
  let* xfft := alloc2 rows in
  let* _ := fill (concat (map (sl None (Some kmin)) xfft)) (0, 0) in
  let* _ := fill (concat (map (sl (Some (kmax + 1)%Z) None) xfft)) (0, 0) in
  pret xfft.

(** ** stationary_wavenumber, diagnostics.py:296-303: [ks2] is the new array of
    :296, which holds finite numbers, [u] the wind *)
Definition ks2_inplace (ks2 : arr) (u : arr) (min_u : R) : prog ext arr :=
  let* uv := load NaN u in
  let small_u := map (fun a => match a with Fin x => isclose_tol min_u (/ 100000) x 0 | _ => false end) uv in   (* :298 *)
  let large_u := map negb small_u in
  let* _ := check (Nat.eqb (length small_u) (length ks2)) IndexError in
  let* a := load NaN (compress large_u ks2) in
  let* _ := assign (compress large_u ks2) (map2 ediv a (compress large_u uv)) in         (* :299 *)
  let* k := load NaN ks2 in
  let infinite := map2 (fun s a => s && negb (match a with Fin x => Reqb x 0 | _ => false end)) small_u k in
  let* a := load NaN (compress infinite ks2) in
  let* _ := assign (compress infinite ks2) (map (fun a => emul a PInf) a) in             (* :303 *)
  pret ks2.
