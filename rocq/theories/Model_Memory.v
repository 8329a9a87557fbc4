(** Model of States and integrations with arrays as mutable objects in memory
    (src/barotropic/state.py:48-59, 138-284, model.py:49-175, grid.py:379-383).

    An array is a number, its address; two names for the same array share the
    address.  State objects hold addresses in their slots, and reading an
    attribute hands out an address.  The arrays of a Grid and the background PV of
    a model are constants here, and temporary arrays that nobody keeps have no
    address.  pyspharm and the diagnostics return new arrays. *)
From Coq Require Export String.
From Verif Require Export Base Model_Grid Model_Time Model_Spectral Model_State Model_Lazy Model_Run Model_RHS.
From Coq Require Import List.
Import ListNotations.

(** State object: grid, time and the addresses in its slots, state.py:48-59 *)
Record stored (K : numtype) := mkStored {
  t_grid : grid;
  t_time : pyval K;
  t_pv_spectral : nat;
  t_pv : option nat;
  t_u : option nat;
  t_v : option nat;
  t_streamfunction : option nat;
  t_pv_zonalized : option nat;
  t_falwa : option nat
}.
Arguments mkStored {K}. Arguments t_grid {K}. Arguments t_time {K}. Arguments t_pv_spectral {K}.
Arguments t_pv {K}. Arguments t_u {K}. Arguments t_v {K}. Arguments t_streamfunction {K}.
Arguments t_pv_zonalized {K}. Arguments t_falwa {K}.

Record memory (K : numtype) := mkMemory { arrays : list fieldval; objects : list (stored K) }.
Arguments mkMemory {K}. Arguments arrays {K}. Arguments objects {K}.

(** replaces entry number i *)
Fixpoint update {A} (i : nat) (x : A) (l : list A) : list A :=
  match l, i with
  | [], _ => []
  | _ :: l, O => x :: l
  | y :: l, S i => y :: update i x l
  end.

(** programs: may raise, and change the memory *)
Definition prog (K : numtype) (A : Type) : Type := memory K -> res A * memory K.
Definition done {K A} (a : A) : prog K A := fun m => (Ok a, m).
Definition attempt {K A} (r : res A) : prog K A := fun m => (r, m).
Definition pbind {K A B} (p : prog K A) (k : A -> prog K B) : prog K B := fun m =>
  match p m with (Ok a, m') => k a m' | (Err e, m') => (Err e, m') end.
Notation "'let*' x := p 'in' k" := (pbind p (fun x => k)) (at level 200, x pattern, p at level 100, k at level 200).

Section Programs.
Context {K : numtype} (T : sphfam) (D : diagnostics).

(** a new array *)
Definition alloc (x : fieldval) : prog K nat := fun m =>
  (Ok (List.length (arrays m)), mkMemory (arrays m ++ [x]) (objects m)).
(** contents of an array; an address that does not exist cannot be read *)
Definition load (a : nat) : prog K fieldval := fun m =>
  (match nth_error (arrays m) a with Some x => Ok x | None => Err TypeError end, m).
(** writes into an existing array *)
Definition store (a : nat) (x : fieldval) : prog K unit := fun m =>
  (Ok tt, mkMemory (update a x (arrays m)) (objects m)).
Definition load_mat (a : nat) : prog K mat :=
  let* x := load a in attempt (match x with FM f => Ok f | _ => Err TypeError end).
Definition load_spec (a : nat) : prog K spec :=
  let* x := load a in attempt (match x with FS f => Ok f | _ => Err TypeError end).

Definition get_object (i : nat) : prog K (stored K) := fun m =>
  (match nth_error (objects m) i with Some o => Ok o | None => Err TypeError end, m).
Definition set_object (i : nat) (o : stored K) : prog K unit := fun m =>
  (Ok tt, mkMemory (arrays m) (update i o (objects m))).
Definition new_object (o : stored K) : prog K nat := fun m =>
  (Ok (List.length (objects m)), mkMemory (arrays m) (objects m ++ [o])).

(** State.__init__ with pv_spectral: the array itself goes into the slot, state.py:54 *)
Definition state_of_spectral (g : grid) (time : pyval K) (a : nat) : prog K nat :=
  new_object (mkStored g time a None None None None None None).
(** State.__init__ with pv: the slot gets the new array made by to_spectral *)
Definition state_of_pv (g : grid) (time : pyval K) (a : nat) : prog K nat :=
  let* f := load_mat a in let* x := alloc (FS (to_spectral T g f)) in state_of_spectral g time x.

Definition put_pv (o : stored K) a := mkStored (t_grid o) (t_time o) (t_pv_spectral o) a (t_u o) (t_v o) (t_streamfunction o) (t_pv_zonalized o) (t_falwa o).
Definition put_uv (o : stored K) a b := mkStored (t_grid o) (t_time o) (t_pv_spectral o) (t_pv o) a b (t_streamfunction o) (t_pv_zonalized o) (t_falwa o).
Definition put_streamfunction (o : stored K) a := mkStored (t_grid o) (t_time o) (t_pv_spectral o) (t_pv o) (t_u o) (t_v o) a (t_pv_zonalized o) (t_falwa o).
Definition put_pv_zonalized (o : stored K) a := mkStored (t_grid o) (t_time o) (t_pv_spectral o) (t_pv o) (t_u o) (t_v o) (t_streamfunction o) a (t_falwa o).
Definition put_falwa (o : stored K) a := mkStored (t_grid o) (t_time o) (t_pv_spectral o) (t_pv o) (t_u o) (t_v o) (t_streamfunction o) (t_pv_zonalized o) a.

(** state.py:140-145: _pv is made at the first access and handed out as it is *)
Definition get_pv (i : nat) : prog K nat :=
  let* o := get_object i in
  match t_pv o with
  | Some a => done a
  | None => let* x := load_spec (t_pv_spectral o) in
            let* a := alloc (FM (to_grid T (t_grid o) x)) in
            let* _ := set_object i (put_pv o (Some a)) in done a
  end.
(** state.py:155-160 *)
Definition get_pv_spectral (i : nat) : prog K nat :=
  let* o := get_object i in done (t_pv_spectral o).
(** state.py:208-210: a new array *)
Definition get_vorticity_spectral (i : nat) : prog K nat :=
  let* a := get_pv_spectral i in let* o := get_object i in let* x := load_spec a in
  alloc (FS (ssub x (fcor2_spectral T (t_grid o)))).
(** state.py:176-180 *)
Definition do_invert_pv (i : nat) : prog K (nat * nat) :=
  let* a := get_vorticity_spectral i in let* o := get_object i in let* x := load_spec a in
  let w := wind T (t_grid o) (Spectral x) (Spectral (szeros_like x)) in
  let* u := alloc (FM (fst w)) in let* v := alloc (FM (snd w)) in
  let* _ := set_object i (put_uv o (Some u) (Some v)) in done (u, v).
(** state.py:162-174 *)
Definition get_u (i : nat) : prog K nat :=
  let* o := get_object i in
  match t_u o with Some a => done a | None => let* w := do_invert_pv i in done (fst w) end.
Definition get_v (i : nat) : prog K nat :=
  let* o := get_object i in
  match t_v o with Some a => done a | None => let* w := do_invert_pv i in done (snd w) end.
(** Grid.solve_poisson_spectral, grid.py:379-383: an array of zeros, then an
    assignment to all of its elements but the first *)
Definition assign_tail (x y : spec) : spec := firstn 1 x ++ y.
Definition do_solve_poisson (g : grid) (a : nat) : prog K nat :=
  let* rhs := load_spec a in
  let* solution := alloc (FS (szeros_like rhs)) in
  let* x := load_spec solution in let* rhs := load_spec a in
  let* _ := store solution (FS (assign_tail x
    (map2 (fun c l => Cdiv (Copp c) (RtoC (l + 0))) (skipn 1 rhs) (skipn 1 (laplacian_eigenvalues g))))) in
  done solution.
(** state.py:182-188 *)
Definition get_streamfunction (i : nat) : prog K nat :=
  let* o := get_object i in
  match t_streamfunction o with
  | Some a => done a
  | None => let* vo := get_vorticity_spectral i in
            let* b := do_solve_poisson (t_grid o) vo in let* x := load_spec b in
            let* a := alloc (FM (to_grid T (t_grid o) x)) in
            let* o := get_object i in
            let* _ := set_object i (put_streamfunction o (Some a)) in done a
  end.
(** state.py:190-193 *)
Definition get_pv_flux_spectral (i : nat) : prog K nat :=
  let* q := get_pv i in let* u := get_u i in let* q' := get_pv i in let* v := get_v i in
  let* o := get_object i in
  let* qx := load_mat q in let* ux := load_mat u in let* qx' := load_mat q' in let* vx := load_mat v in
  alloc (FS (divergence_spectral T (t_grid o) (mmul qx ux) (mmul qx' vx))).
(** state.py:195-198 *)
Definition get_vorticity (i : nat) : prog K nat :=
  let* q := get_pv i in let* o := get_object i in let* x := load_mat q in
  alloc (FM (msub x (g_fcor2 (t_grid o)))).
(** state.py:212-225 *)
Definition get_enstrophy (i : nat) : prog K nat :=
  let* q := get_pv i in let* x := load_mat q in alloc (FM (enstrophy_of x)).
Definition get_eddy_enstrophy (i : nat) : prog K nat :=
  let* q := get_pv i in let* x := load_mat q in alloc (FM (eddy_enstrophy_of x)).
Definition get_energy (i : nat) : prog K nat :=
  let* u := get_u i in let* v := get_v i in let* x := load_mat u in let* y := load_mat v in
  alloc (FM (energy_of x y)).
(** state.py:229-235, _cached_property :13-20 *)
Definition get_pv_zonalized (i : nat) : prog K nat :=
  let* o := get_object i in
  match t_pv_zonalized o with
  | Some a => done a
  | None => let* q := get_pv i in let* x := load_mat q in
            let* z := attempt (d_zonalize D (t_grid o) x) in
            let* a := alloc (FV z) in let* o := get_object i in
            let* _ := set_object i (put_pv_zonalized o (Some a)) in done a
  end.
(** state.py:247-253 *)
Definition get_falwa (i : nat) : prog K nat :=
  let* o := get_object i in
  match t_falwa o with
  | Some a => done a
  | None => let* q := get_pv i in let* x := load_mat q in
            let* z := attempt (d_falwa D (t_grid o) x) in
            let* a := alloc (FM z) in let* o := get_object i in
            let* _ := set_object i (put_falwa o (Some a)) in done a
  end.
(** state.py:237-245 *)
Definition get_fawa (i : nat) : prog K nat :=
  let* a := get_falwa i in let* x := load_mat a in alloc (FV (map vmean x)).
(** state.py:255-268 *)
Definition get_falwa_filtered (i : nat) : prog K nat :=
  let* v := get_v i in let* o := get_object i in let* x := load_mat v in
  let* k := attempt (d_dominant D (t_grid o) x) in
  let* a := get_falwa i in let* y := load_mat a in
  let* z := attempt (d_filter D y (vscale 2 k)) in alloc (FM z).
(** state.py:270-276 *)
Definition get_v_envelope_hilbert (i : nat) : prog K nat :=
  let* v := get_v i in let* x := load_mat v in
  let* z := attempt (d_envelope D x) in alloc (FM z).
(** state.py:278-284 *)
Definition get_stationary_wavenumber (i : nat) : prog K nat :=
  let* u := get_u i in let* q := get_pv i in let* o := get_object i in
  let* x := load_mat u in let* y := load_mat q in
  let* z := attempt (d_ks D (t_grid o) x y) in alloc (FS z).

Definition get_attribute (a : attribute) (i : nat) : prog K nat :=
  match a with
  | Apv | Aavo => get_pv i
  | Apv_spectral => get_pv_spectral i
  | Au => get_u i
  | Av => get_v i
  | Astreamfunction => get_streamfunction i
  | Apv_flux_spectral => get_pv_flux_spectral i
  | Avorticity | Avo => get_vorticity i
  | Avorticity_spectral => get_vorticity_spectral i
  | Aenstrophy => get_enstrophy i
  | Aeddy_enstrophy => get_eddy_enstrophy i
  | Aenergy => get_energy i
  | Apv_zonalized => get_pv_zonalized i
  | Afawa => get_fawa i
  | Afalwa => get_falwa i
  | Afalwa_filtered => get_falwa_filtered i
  | Av_envelope_hilbert => get_v_envelope_hilbert i
  | Astationary_wavenumber => get_stationary_wavenumber i
  end.

(** A forcing as a program on a State object; it returns a number or an array,
    which may be one of the arrays of the State. *)
Inductive value := VArray (a : nat) | VPlain (c : R).
(** value of an array or number, and the array or number for a value *)
Definition load_value (v : value) : prog K fval :=
  match v with VPlain c => done (FNum c) | VArray a => let* x := load_mat a in done (FMat x) end.
Definition alloc_value (x : fval) : prog K value :=
  match x with FNum c => done (VPlain c) | FMat f => let* a := alloc (FM f) in done (VArray a) end.
(** self._get_wind, rhs.py:136-143 *)
Definition do_wind (o : orog) (i : nat) : prog K (bfield * bfield) :=
  match o_wind o with
  | WAct => let* u := get_u i in let* x := load_mat u in let* v := get_v i in let* y := load_mat v in
            done (BMat (mscale (o_fact o) x), BMat (mscale (o_fact o) y))
  | WZon => let* u := get_u i in let* x := load_mat u in
            done (BCol (map (fun row => o_fact o * vmean row) x), BNum 0)
  | WSbr => let* t := get_object i in
            done (BCol (map (fun phi => o_fact o * cos phi) (g_phi (t_grid t))), BNum 0)
  end.
(** Orography.__call__, rhs.py:173-185; the cached gradient is constant (C44) *)
Definition do_orog (o : orog) (i : nat) : prog K value :=
  let* t := get_object i in
  let fcor := match o_fcor_ref o with
              | None => BMat (mscale (- / o_scale_height o) (g_fcor2 (t_grid t)))
              | Some f => BNum (- f / o_scale_height o)
              end in
  let* w := do_wind o i in
  let* grad := attempt (orography_gradient T (o_relief o) (t_grid t)) in
  alloc_value (FMat (bmul fcor (madd (bmul (fst w) (fst grad)) (bmul (snd w) (snd grad))))).
(** forcing expressions, rhs.py:16-91.  Functions of the user are taken to return
    a new array. *)
Fixpoint do_call (a : obj K) (i : nat) : prog K value :=
  match a with
  | PNum _ => attempt (Err TypeError)
  | PFun f | PUser f =>
      let* o := get_object i in let* x := load_spec (t_pv_spectral o) in
      let* r := attempt (f (mkState (t_grid o) (t_time o) x)) in alloc_value r
  | PSum a b => let* v := do_call a i in let* w := do_call b i in
                let* x := load_value v in let* y := load_value w in
                let* z := attempt (fbin Rplus x y) in alloc_value z
  | PProd a b => let* v := do_call a i in let* w := do_call b i in
                 let* x := load_value v in let* y := load_value w in
                 let* z := attempt (fbin Rmult x y) in alloc_value z
  | PSwitch tend => let* o := get_object i in
                    let* on := attempt (py_le (t_time o) tend) in done (VPlain (if on : bool then 1 else 0))
  | PRelax rate ref => let* q := get_pv i in let* x := load_mat q in
                       let* d := attempt (fbin Rminus ref (FMat x)) in
                       let* r := attempt (fbin Rmult (FNum rate) d) in alloc_value r
  | POrog o => do_orog o i
  end.

Record program_model := mkProgram {
  p_rhs : option (nat -> prog K value);
  p_order : nat;
  p_coeff : R;
  p_bg : option mat
}.
Variable M : program_model.

(** _pv_tendency_spectral, model.py:152-157; += writes into the array made by the
    minus sign *)
Definition do_tendency (i : nat) : prog K nat :=
  let* f := get_pv_flux_spectral i in let* x := load_spec f in
  let* tendency := alloc (FS (sopp x)) in
  match p_rhs M with
  | None => done tendency
  | Some rhs =>
      let* r := rhs i in let* o := get_object i in
      match r with
      | VPlain _ => attempt (Err AttributeError)
      | VArray b =>
          let* y := load_mat b in let* x := load_spec tendency in
          let* _ := store tendency (FS (sadd x (to_spectral T (t_grid o) y))) in
          done tendency
      end
  end.

(** _apply_diffusion, model.py:159-175: the result is a new array *)
Definition do_diffusion (g : grid) (dt : R) (x : spec) : prog K nat :=
  alloc (FS (apply_diffusion T (@mkModel K None (p_order M) (p_coeff M) (p_bg M)) g dt x)).

(** euler, model.py:91-109 *)
Definition do_euler (i : nat) (dt : pyval K) : prog K nat :=
  let* dts := attempt (to_seconds dt) in
  let* a := get_pv_spectral i in let* t := do_tendency i in
  let* x := load_spec a in let* y := load_spec t in
  let* o := get_object i in
  let* n := do_diffusion (t_grid o) dts (sadd x (sscale dts y)) in
  let* time := attempt (py_add (t_time o) dt) in
  state_of_spectral (t_grid o) time n.

(** leapfrog, model.py:111-150 *)
Definition do_leapfrog (old now : nat) (nu : R) : prog K (nat * nat) :=
  let* o1 := get_object old in let* o2 := get_object now in
  let* dt := attempt (py_sub (t_time o2) (t_time o1)) in
  let* dts := attempt (to_seconds dt) in
  let* a := get_pv_spectral old in let* t := do_tendency now in
  let* x := load_spec a in let* y := load_spec t in
  let* n := do_diffusion (t_grid o2) (2 * dts) (sadd x (sscale (2 * dts) y)) in
  let* time := attempt (py_add (t_time o2) dt) in
  let* s_new := state_of_spectral (t_grid o2) time n in
  let* b := get_pv_spectral now in let* c := get_pv_spectral old in
  let* xb := load_spec b in let* xc := load_spec c in let* xn := load_spec n in
  let* f := alloc (FS (sadd (sscale (1 - 2 * nu) xb) (sscale nu (sadd xc xn)))) in
  let* s_now := state_of_spectral (t_grid o2) (t_time o2) f in
  done (s_now, s_new).

(** the while loop, model.py:84-88, with the objects in the list of saved states *)
Fixpoint do_loop (fuel : nat) (tend save_every : pyval K) (st st_new : nat) (states : list nat) (t_save : pyval K)
    : prog K (nat * list nat) :=
  match fuel with
  | O => attempt (Err OutOfFuel)
  | S fuel =>
      let* o := get_object st in
      let* continue := attempt (py_lt (t_time o) tend) in
      if continue : bool then
        let* p := do_leapfrog st st_new default_nu in
        let* saving := attempt (py_lt (VNum (n_zero K)) save_every) in
        if saving : bool then
          let* o := get_object (fst p) in
          let* due := attempt (py_le t_save (t_time o)) in
          if due : bool then
            let* t_save := attempt (py_add t_save save_every) in
            do_loop fuel tend save_every (fst p) (snd p) (states ++ [fst p]) t_save
          else do_loop fuel tend save_every (fst p) (snd p) states t_save
        else do_loop fuel tend save_every (fst p) (snd p) states t_save
      else done (st, states)
  end.
(** StateList(states), state.py:433-439: looks at the objects and keeps them *)
Fixpoint do_states (l : list nat) : prog K (list (state K)) :=
  match l with
  | [] => done []
  | i :: l => let* o := get_object i in let* x := load_spec (t_pv_spectral o) in
              let* r := do_states l in done (mkState (t_grid o) (t_time o) x :: r)
  end.
(** run, model.py:49-89 *)
Definition do_run (fuel : nat) (init : nat) (dt tend save_every : pyval K) : prog K (nat * list nat) :=
  let* o := get_object init in
  let* past := attempt (py_lt tend (t_time o)) in
  if past : bool then done (init, [init])
  else
    let* st_new := do_euler init dt in
    let* p := do_loop fuel tend save_every init st_new [init] save_every in
    let* l := do_states (snd p) in
    let* _ := attempt (statelist_of l) in done p.
End Programs.
Arguments program_model : clear implicits.
