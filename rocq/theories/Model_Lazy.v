(** Model of the State object with its lazily evaluated, memoized slots
    (src/barotropic/state.py:13-20, 48-59, 138-284).  Every attribute read may fill
    slots; reads are state transformers that may raise. *)
From Coq Require Export String.
From Verif Require Export Base Model_Grid Model_Time Model_Spectral Model_State.

(** The diagnostics called by the properties, as functions of the values they
    read (diagnostics.py, grid.py:599); arbitrary here. *)
Record diagnostics := mkDiag {
  d_zonalize : grid -> mat -> res vec;          (* grid.zonalize(pv, interpolate=True) *)
  d_falwa : grid -> mat -> res mat;             (* falwa reads grid and pv, diagnostics.py:74 *)
  d_dominant : grid -> mat -> res vec;          (* dominant_wavenumber_fourier(v, grid) *)
  d_filter : mat -> vec -> res mat;             (* filter_by_wavenumber(falwa, 2*k) *)
  d_envelope : mat -> res mat;                  (* envelope_hilbert(v, (2, 10)) *)
  d_ks : grid -> mat -> mat -> res spec         (* stationary_wavenumber reads grid, u, pv, :284 *)
}.

Record object (K : numtype) := mkObject {
  o_grid : grid;
  o_time : pyval K;
  o_pv_spectral : spec;                 (* _pv_spectral, set by the constructor *)
  o_pv : option mat;                    (* _pv *)
  o_u : option mat;                     (* _u *)
  o_v : option mat;                     (* _v *)
  o_streamfunction : option mat;        (* _streamfunction *)
  o_pv_zonalized : option vec;          (* _pv_zonalized, created by _cached_property *)
  o_falwa : option mat                  (* _falwa, created by _cached_property *)
}.
Arguments mkObject {K}.
Arguments o_grid {K}. Arguments o_time {K}. Arguments o_pv_spectral {K}. Arguments o_pv {K}.
Arguments o_u {K}. Arguments o_v {K}. Arguments o_streamfunction {K}. Arguments o_pv_zonalized {K}.
Arguments o_falwa {K}.

(** object right after State.__init__, state.py:48-59 *)
Definition fresh {K} (s : state K) : object K :=
  mkObject (s_grid s) (s_time s) (s_pvs s) None None None None None None.

Definition set_pv {K} (o : object K) x := mkObject (o_grid o) (o_time o) (o_pv_spectral o) x (o_u o) (o_v o) (o_streamfunction o) (o_pv_zonalized o) (o_falwa o).
Definition set_uv {K} (o : object K) x y := mkObject (o_grid o) (o_time o) (o_pv_spectral o) (o_pv o) x y (o_streamfunction o) (o_pv_zonalized o) (o_falwa o).
Definition set_streamfunction {K} (o : object K) x := mkObject (o_grid o) (o_time o) (o_pv_spectral o) (o_pv o) (o_u o) (o_v o) x (o_pv_zonalized o) (o_falwa o).
Definition set_pv_zonalized {K} (o : object K) x := mkObject (o_grid o) (o_time o) (o_pv_spectral o) (o_pv o) (o_u o) (o_v o) (o_streamfunction o) x (o_falwa o).
Definition set_falwa {K} (o : object K) x := mkObject (o_grid o) (o_time o) (o_pv_spectral o) (o_pv o) (o_u o) (o_v o) (o_streamfunction o) (o_pv_zonalized o) x.

(** computations on an object *)
Definition comp (K : numtype) (A : Type) : Type := object K -> res A * object K.
Definition ret {K A} (a : A) : comp K A := fun o => (Ok a, o).
Definition raise_res {K A} (r : res A) : comp K A := fun o => (r, o).
Definition cbind {K A B} (m : comp K A) (k : A -> comp K B) : comp K B := fun o =>
  match m o with (Ok a, o') => k a o' | (Err e, o') => (Err e, o') end.
Notation "'get' x <- m ; k" := (cbind m (fun x => k)) (at level 200, x pattern, m at level 100, k at level 200).

Section Reads.
Context {K : numtype} (T : sphfam) (D : diagnostics).

(** state.py:140-145 *)
Definition read_pv : comp K mat := fun o =>
  match o_pv o with
  | Some x => (Ok x, o)
  | None => let x := to_grid T (o_grid o) (o_pv_spectral o) in (Ok x, set_pv o (Some x))
  end.
(** state.py:155-160 *)
Definition read_pv_spectral : comp K spec := fun o => (Ok (o_pv_spectral o), o).
Definition read_grid : comp K grid := fun o => (Ok (o_grid o), o).
(** state.py:208-210 *)
Definition read_vorticity_spectral : comp K spec :=
  get q <- read_pv_spectral; get g <- read_grid; ret (ssub q (fcor2_spectral T g)).
(** state.py:176-180 *)
Definition invert_pv : comp K unit :=
  get vo <- read_vorticity_spectral; get g <- read_grid;
  fun o => let w := wind T g (Spectral vo) (Spectral (szeros_like vo)) in
           (Ok tt, set_uv o (Some (fst w)) (Some (snd w))).
(** state.py:162-174; a slot still None after _invert_pv cannot happen *)
Definition read_u : comp K mat := fun o =>
  match o_u o with
  | Some x => (Ok x, o)
  | None => (get _ <- invert_pv; fun o => (match o_u o with Some x => Ok x | None => Err TypeError end, o)) o
  end.
Definition read_v : comp K mat := fun o =>
  match o_v o with
  | Some x => (Ok x, o)
  | None => (get _ <- invert_pv; fun o => (match o_v o with Some x => Ok x | None => Err TypeError end, o)) o
  end.
(** state.py:182-188 *)
Definition read_streamfunction : comp K mat := fun o =>
  match o_streamfunction o with
  | Some x => (Ok x, o)
  | None => (get vo <- read_vorticity_spectral; get g <- read_grid;
             let x := to_grid T g (solve_poisson_spectral g vo 0) in
             fun o => (Ok x, set_streamfunction o (Some x))) o
  end.
(** state.py:190-193 *)
Definition read_pv_flux_spectral : comp K spec :=
  get g <- read_grid; get q <- read_pv; get u <- read_u; get q' <- read_pv; get v <- read_v;
  ret (divergence_spectral T g (mmul q u) (mmul q' v)).
(** state.py:195-198 *)
Definition read_vorticity : comp K mat :=
  get q <- read_pv; get g <- read_grid; ret (msub q (g_fcor2 g)).
(** state.py:212-225 *)
Definition read_enstrophy : comp K mat := get q <- read_pv; ret (enstrophy_of q).
Definition read_eddy_enstrophy : comp K mat :=
  get q <- read_pv; get q' <- read_pv; ret (mmap (fun x => 1 / 2 * x ^ 2) (map2 (fun row row' => map (fun x => x - vmean row') row) q q')).
Definition read_energy : comp K mat :=
  get u <- read_u; get u' <- read_u; get v <- read_v; get v' <- read_v;
  ret (mscale (1 / 2) (madd (mmul u u') (mmul v v'))).
(** state.py:229-235 with _cached_property (:13-20) *)
Definition read_pv_zonalized : comp K vec := fun o =>
  match o_pv_zonalized o with
  | Some x => (Ok x, o)
  | None => (get g <- read_grid; get q <- read_pv; get x <- raise_res (d_zonalize D g q);
             fun o => (Ok x, set_pv_zonalized o (Some x))) o
  end.
(** state.py:247-253 *)
Definition read_falwa : comp K mat := fun o =>
  match o_falwa o with
  | Some x => (Ok x, o)
  | None => (get g <- read_grid; get q <- read_pv; get x <- raise_res (d_falwa D g q);
             fun o => (Ok x, set_falwa o (Some x))) o
  end.
(** state.py:237-245 *)
Definition read_fawa : comp K vec := get x <- read_falwa; ret (map vmean x).
(** state.py:255-268 *)
Definition read_falwa_filtered : comp K mat :=
  get v <- read_v; get g <- read_grid; get k <- raise_res (d_dominant D g v);
  get a <- read_falwa; raise_res (d_filter D a (vscale 2 k)).
(** state.py:270-276 *)
Definition read_v_envelope_hilbert : comp K mat := get v <- read_v; raise_res (d_envelope D v).
(** state.py:278-284; diagnostics.py:284 reads grid, u, pv *)
Definition read_stationary_wavenumber : comp K spec :=
  get g <- read_grid; get u <- read_u; get q <- read_pv; raise_res (d_ks D g u q).

(** All field attributes. *)
Inductive attribute :=
| Apv | Aavo | Apv_spectral | Au | Av | Astreamfunction | Apv_flux_spectral
| Avorticity | Avo | Avorticity_spectral | Aenstrophy | Aeddy_enstrophy | Aenergy
| Apv_zonalized | Afawa | Afalwa | Afalwa_filtered | Av_envelope_hilbert | Astationary_wavenumber.
Inductive fieldval := FM (m : mat) | FS (x : spec) | FV (v : vec).

Definition wrap {A} (w : A -> fieldval) (m : comp K A) : comp K fieldval := get a <- m; ret (w a).
Definition read (a : attribute) : comp K fieldval :=
  match a with
  | Apv | Aavo => wrap FM read_pv
  | Apv_spectral => wrap FS read_pv_spectral
  | Au => wrap FM read_u
  | Av => wrap FM read_v
  | Astreamfunction => wrap FM read_streamfunction
  | Apv_flux_spectral => wrap FS read_pv_flux_spectral
  | Avorticity | Avo => wrap FM read_vorticity
  | Avorticity_spectral => wrap FS read_vorticity_spectral
  | Aenstrophy => wrap FM read_enstrophy
  | Aeddy_enstrophy => wrap FM read_eddy_enstrophy
  | Aenergy => wrap FM read_energy
  | Apv_zonalized => wrap FV read_pv_zonalized
  | Afawa => wrap FV read_fawa
  | Afalwa => wrap FM read_falwa
  | Afalwa_filtered => wrap FM read_falwa_filtered
  | Av_envelope_hilbert => wrap FM read_v_envelope_hilbert
  | Astationary_wavenumber => wrap FS read_stationary_wavenumber
  end.

(** the object after a history of reads *)
Definition after (o : object K) (history : list attribute) : object K :=
  fold_left (fun o a => snd (read a o)) history o.
End Reads.
