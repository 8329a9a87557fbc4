(** Model of Grid.__init__, equality/hash and planetary geometry
    (src/barotropic/grid.py:11-122). *)
From Verif Require Export Base.

(** Attributes of a Grid object that the remaining attributes are computed
    from.  [dlon = resolution] (grid.py:58). *)
Record grid := mkGrid {
  g_res : R;        (* self.dlon, grid.py:58 *)
  g_rsphere : R;    (* grid.py:47 *)
  g_omega : R;      (* grid.py:48 *)
  g_nlon : nat;     (* grid.py:52 *)
  g_nlat : nat;     (* grid.py:53 *)
  g_ntrunc : nat    (* grid.py:69 *)
}.

(** grid.py:52-53: nlon = int(360. / resolution), nlat = int(180. / resolution) + 1 *)
Definition nlon_of (resolution : R) : Z := py_int (360 / resolution).
Definition nlat_of (resolution : R) : Z := (py_int (180 / resolution) + 1)%Z.

(** Grid.__init__, grid.py:44-81.  Division by a zero resolution raises
    ZeroDivisionError (:52); np.linspace raises ValueError for a negative
    number of samples (:54-55); spharm.Spharmt (:68) raises ValueError unless
    rsphere > 0, nlon > 3 and nlat > 2; grdtospec (:81 via :198) raises
    ValueError unless 0 <= ntrunc <= nlat - 1.  The legfunc argument only
    selects between stored and recomputed Legendre functions and is dropped. *)
Definition mk_grid (resolution rsphere omega : R) (ntrunc : option Z) : res grid :=
  if Req_EM_T resolution 0 then Err ZeroDivisionError
  else
    let nlon := nlon_of resolution in
    let nlat := nlat_of resolution in
    if (nlon <? 0)%Z || (nlat <? 0)%Z then Err ValueError
    else if negb (Rltb 0 rsphere) then Err ValueError
    else if (nlon <=? 3)%Z || (nlat <=? 2)%Z then Err ValueError
    else
      let nt := match ntrunc with None => (nlat - 1)%Z | Some t => t end in
      if (nt <? 0)%Z || (nlat - 1 <? nt)%Z then Err ValueError
      else Ok {| g_res := resolution; g_rsphere := rsphere; g_omega := omega;
                 g_nlon := Z.to_nat nlon; g_nlat := Z.to_nat nlat;
                 g_ntrunc := Z.to_nat nt |}.

(** np.linspace(start, stop, n, endpoint=True/False) *)
Definition linspace_end (start stop : R) (n : nat) : vec :=
  tab n (fun i => start + INR i * ((stop - start) / INR (n - 1))).
Definition linspace_noend (start stop : R) (n : nat) : vec :=
  tab n (fun i => start + INR i * ((stop - start) / INR n)).

(** grid.py:54-66 *)
Definition g_lon (g : grid) : vec := linspace_noend 0 360 (g_nlon g).
Definition g_lat (g : grid) : vec := linspace_end 90 (-90) (g_nlat g).
Definition g_dlon (g : grid) : R := g_res g.
Definition g_dlat (g : grid) : R := - g_res g.
Definition g_lam (g : grid) : vec := map deg2rad (g_lon g).
Definition g_phi (g : grid) : vec := map deg2rad (g_lat g).
Definition g_dlam (g : grid) : R := deg2rad (g_dlon g).
Definition g_dphi (g : grid) : R := deg2rad (g_dlat g).
(** grid.py:56, 63: np.meshgrid *)
Definition g_lon2 (g : grid) : mat := map (fun _ => g_lon g) (g_lat g).
Definition g_lat2 (g : grid) : mat := map (fun y => map (fun _ => y) (g_lon g)) (g_lat g).
Definition g_lam2 (g : grid) : mat := map (fun _ => g_lam g) (g_phi g).
Definition g_phi2 (g : grid) : mat := map (fun y => map (fun _ => y) (g_lam g)) (g_phi g).

(** Grid.shape, grid.py:97-100 *)
Definition g_shape (g : grid) : nat * nat := (g_nlat g, g_nlon g).

(** Grid.circumference, grid.py:102-111 *)
Definition circumference (g : grid) (lat : R) : R :=
  2 * PI * g_rsphere g * cos (deg2rad lat).

(** Grid.coriolis, grid.py:113-122, and the precomputed fields grid.py:79-80 *)
Definition coriolis (g : grid) (lat : R) : R :=
  2 * g_omega g * sin (deg2rad lat).
Definition g_fcor (g : grid) : vec := map (coriolis g) (g_lat g).
Definition g_fcor2 (g : grid) : mat := mmap (coriolis g) (g_lat2 g).

(** Grid.__eq__, grid.py:86-92 *)
Definition grid_eqb (a b : grid) : bool :=
  (Nat.eqb (g_nlat a) (g_nlat b) && Nat.eqb (g_nlon a) (g_nlon b))
  && isclose (g_rsphere a) (g_rsphere b)
  && isclose (g_omega a) (g_omega b)
  && Nat.eqb (g_ntrunc a) (g_ntrunc b).

(** Grid.__hash__, grid.py:94-95: hash of this tuple.  The model keeps the
    tuple itself, i.e. it treats Python's tuple hash as injective; unequal
    tuples are therefore "different hashes" up to accidental collisions. *)
Definition grid_hash_key (g : grid) : (nat * nat) * R * R * nat :=
  (g_shape g, g_rsphere g, g_omega g, g_ntrunc g).
