(** Model of the spectral part of Grid (src/barotropic/grid.py:67-81, 187-294,
    345-411).

    pyspharm's Spharmt object is external compiled code: a record of functions
    (the methods called by the package).  The object is determined by the
    arguments of its constructor (grid.py:68), so the model quantifies over a
    family [T nlat nlon rsphere].  Fields handed to pyspharm have the shape of the
    grid and spectral arrays have the length belonging to the truncation; the
    ValueErrors pyspharm and NumPy raise otherwise are not modelled.  float32
    casts are not modelled (grid.py:71-77). *)
From Coq Require Export String.
From Verif Require Export Base Model_Grid.
From Coquelicot Require Export Complex.

Notation spec := (list C).

Record spharm := mkSpharm {
  sh_grdtospec : mat -> nat -> spec;                  (* field, ntrunc *)
  sh_spectogrd : spec -> mat;
  sh_getuv : spec -> spec -> mat * mat;               (* vorticity, divergence *)
  sh_getvrtdivspec : mat -> mat -> nat -> spec * spec;  (* u, v, ntrunc *)
  sh_getgrad : spec -> mat * mat
}.
Definition sphfam := nat -> nat -> R -> spharm.

(** grid.py:68 *)
Definition sph (T : sphfam) (g : grid) : spharm := T (g_nlat g) (g_nlon g) (g_rsphere g).

(** element-wise arithmetic of spectral arrays *)
Definition sadd : spec -> spec -> spec := map2 Cplus.
Definition ssub : spec -> spec -> spec := map2 Cminus.
Definition sscale (c : R) (x : spec) : spec := map (Cmult (RtoC c)) x.
Definition szeros_like (x : spec) : spec := map (fun _ => RtoC 0) x.
Definition sopp (x : spec) : spec := map Copp x.

(** pyspharm getspecindx(ntrunc): zonal wavenumber m is the slow index,
    n = m, ..., ntrunc the fast one.  grid.py:74 *)
Definition specindxn (ntrunc : nat) : list nat :=
  flat_map (fun m => seq m (S ntrunc - m)) (seq 0 (S ntrunc)).

(** grid.py:75-77 *)
Definition laplacian_eigenvalues (g : grid) : vec :=
  map (fun n => INR n * (1 + INR n) / g_rsphere g / g_rsphere g) (specindxn (g_ntrunc g)).

(** Grid.to_spectral, grid.py:189-198; Grid.to_grid, grid.py:200-209 *)
Definition to_spectral (T : sphfam) (g : grid) (f : mat) : spec :=
  sh_grdtospec (sph T g) f (g_ntrunc g).
Definition to_grid (T : sphfam) (g : grid) (x : spec) : mat := sh_spectogrd (sph T g) x.

(** grid.py:81 *)
Definition fcor2_spectral (T : sphfam) (g : grid) : spec := to_spectral T g (g_fcor2 g).

(** Grid.wind, grid.py:213-227.  Gridded arrays (recognised by their shape) are
    transformed first; a spectral array is one-dimensional and never has the
    shape of the grid. *)
Inductive gfield := Gridded (m : mat) | Spectral (x : spec).
Definition as_spectral (T : sphfam) (g : grid) (f : gfield) : spec :=
  match f with Gridded m => to_spectral T g m | Spectral x => x end.
Definition wind (T : sphfam) (g : grid) (vorticity divergence : gfield) : mat * mat :=
  sh_getuv (sph T g) (as_spectral T g vorticity) (as_spectral T g divergence).

(** grid.py:274-276 *)
Definition vorticity_divergence_spectral (T : sphfam) (g : grid) (u v : mat) : spec * spec :=
  sh_getvrtdivspec (sph T g) u v (g_ntrunc g).
(** grid.py:229-259 *)
Definition vorticity_spectral T g u v : spec := fst (vorticity_divergence_spectral T g u v).
Definition divergence_spectral T g u v : spec := snd (vorticity_divergence_spectral T g u v).
Definition vorticity T g u v : mat := to_grid T g (vorticity_spectral T g u v).
Definition divergence T g u v : mat := to_grid T g (divergence_spectral T g u v).

(** Name resolution inside a method body: a bare name refers to a local variable,
    a module-level name or a builtin, never to a method of the class.  The
    module-level names of grid.py (imports :1-8 and the three classes). *)
Definition grid_module_names : list string :=
  ["Number"; "np"; "scipy"; "spharm"; "formatting"; "EARTH_RADIUS"; "EARTH_OMEGA"; "MERIDIONAL";
   "Grid"; "GridRegionIndexer"; "GridRegion"]%string.
Definition global_name {A} (locals : list string) (name : string) (k : A) : res A :=
  if existsb (String.eqb name) (locals ++ grid_module_names) then Ok k else Err NameError.

(** Grid.vorticity_divergence, grid.py:261-272: line 271 calls the bare name
    vorticity_divergence_spectral *)
Definition vorticity_divergence (T : sphfam) (g : grid) (u v : mat) : res (mat * mat) :=
  do f <- global_name ["self"; "u"; "v"]%string "vorticity_divergence_spectral"%string
            (vorticity_divergence_spectral T g);
  let '(vort, div) := f u v in
  Ok (to_grid T g vort, to_grid T g div).

(** Grid.gradient, grid.py:280-294 *)
Definition gradient (T : sphfam) (g : grid) (f : mat) : mat * mat :=
  sh_getgrad (sph T g) (to_spectral T g f).

(** Grid.laplace_spectral, grid.py:356-358; Grid.laplace, grid.py:345-354 *)
Definition laplace_spectral (g : grid) (f : spec) : spec :=
  map2 (fun c l => Cmult (Copp c) (RtoC l)) f (laplacian_eigenvalues g).
Definition laplace (T : sphfam) (g : grid) (f : mat) : mat :=
  to_grid T g (laplace_spectral g (to_spectral T g f)).

(** Grid.solve_poisson_spectral, grid.py:379-383: zeros, then every coefficient
    but the first is assigned.  A zero denominator is inf/nan in NumPy; the model
    is used only where the denominators are not zero. *)
Definition solve_poisson_spectral (g : grid) (rhs : spec) (op_add : R) : spec :=
  firstn 1 (szeros_like rhs)
  ++ map2 (fun c l => Cdiv (Copp c) (RtoC (l + op_add))) (skipn 1 rhs) (skipn 1 (laplacian_eigenvalues g)).
(** Grid.solve_poisson, grid.py:360-377 *)
Definition solve_poisson (T : sphfam) (g : grid) (rhs : mat) (op_add : R) : mat :=
  to_grid T g (solve_poisson_spectral g (to_spectral T g rhs) op_add).

(** Grid.solve_diffusion_spectral, grid.py:408-411, for integer order >= 0 *)
Definition solve_diffusion_spectral (g : grid) (f : spec) (coeff dt : R) (order : nat) : spec :=
  map2 (fun c l => Cdiv c (RtoC (1 + dt * coeff * l ^ order))) f (laplacian_eigenvalues g).
(** Grid.solve_diffusion, grid.py:385-406 *)
Definition solve_diffusion (T : sphfam) (g : grid) (f : mat) (coeff dt : R) (order : nat) : mat :=
  to_grid T g (solve_diffusion_spectral g (to_spectral T g f) coeff dt order).
