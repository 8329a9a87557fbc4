(** Model of BarotropicModel (src/barotropic/model.py). *)
From Coq Require Export String.
From Verif Require Export Base Model_Grid Model_Time Model_Spectral Model_State.

(** Values of forcing terms: a Python number or a field on the grid. *)
Inductive fval := FNum (c : R) | FMat (m : mat).

(** BarotropicModel.__init__, model.py:39-44.  A forcing is any function of the
    state that returns a value or raises. *)
Record bmodel (K : numtype) := mkModel {
  m_rhs : option (state K -> res fval);
  m_order : nat;
  m_coeff : R;
  m_bg : option mat
}.
Arguments mkModel {K}. Arguments m_rhs {K}. Arguments m_order {K}. Arguments m_coeff {K}. Arguments m_bg {K}.

Section Model.
Context {K : numtype} (T : sphfam) (M : bmodel K).

(** _pv_tendency_spectral, model.py:152-157.  A plain number has no shape
    attribute and is refused by pyspharm. *)
Definition pv_tendency_spectral (s : state K) : res spec :=
  let tendency := sopp (s_pv_flux_spectral T s) in
  match m_rhs M with
  | None => Ok tendency
  | Some f =>
      do r <- f s;
      match r with
      | FMat x => Ok (sadd tendency (to_spectral T (s_grid s) x))
      | FNum _ => Err AttributeError
      end
  end.

(** _apply_diffusion, model.py:159-175 *)
Definition apply_diffusion (g : grid) (dt : R) (x : spec) : spec :=
  match m_bg M with
  | None => solve_diffusion_spectral g x (m_coeff M) dt (m_order M)
  | Some bg =>
      let background := to_spectral T g bg in
      sadd (solve_diffusion_spectral g (ssub x background) (m_coeff M) dt (m_order M)) background
  end.

(** euler, model.py:91-109 *)
Definition euler (now : state K) (dt : pyval K) : res (state K) :=
  do dts <- to_seconds dt;
  do tendency <- pv_tendency_spectral now;
  let pv_new := apply_diffusion (s_grid now) dts (sadd (s_pvs now) (sscale dts tendency)) in
  do time <- py_add (s_time now) dt;
  Ok (mkState (s_grid now) time pv_new).

(** leapfrog, model.py:111-150 *)
Definition leapfrog (old now : state K) (nu : R) : res (state K * state K) :=
  do dt <- py_sub (s_time now) (s_time old);
  do dts <- to_seconds dt;
  do tendency <- pv_tendency_spectral now;
  let pv_new := apply_diffusion (s_grid now) (2 * dts) (sadd (s_pvs old) (sscale (2 * dts) tendency)) in
  do time <- py_add (s_time now) dt;
  let pv_now := sadd (sscale (1 - 2 * nu) (s_pvs now)) (sscale nu (sadd (s_pvs old) pv_new)) in
  Ok (mkState (s_grid now) (s_time now) pv_now, mkState (s_grid now) time pv_new).

(** default filter_parameter, model.py:111 *)
Definition default_nu : R := 1 / 5.

(** The second result of run: a plain list or a StateList. *)
Inductive runlist := PlainList (l : list (state K)) | AStateList (l : list (state K)).

(** StateList(states), state.py:433-439, for a list of State objects *)
Definition statelist_of (l : list (state K)) : res (list (state K)) :=
  match l with
  | [] => Ok []
  | s :: _ => passert (forallb (fun s' => grid_eqb (s_grid s) (s_grid s')) l) (Ok l)
  end.

(** the while loop, model.py:84-88; one unit of fuel per evaluation of the loop
    condition *)
Fixpoint run_loop (fuel : nat) (tend save_every : pyval K)
    (st st_new : state K) (states : list (state K)) (t_save : pyval K) : res (state K * list (state K)) :=
  match fuel with
  | O => Err OutOfFuel
  | S fuel =>
      do continue <- py_lt (s_time st) tend;
      if continue then
        do (st, st_new) <- leapfrog st st_new default_nu;
        do saving <- py_lt (VNum (n_zero K)) save_every;
        if saving then
          do due <- py_le t_save (s_time st);
          if due then
            do t_save <- py_add t_save save_every;
            run_loop fuel tend save_every st st_new (states ++ [st]) t_save
          else run_loop fuel tend save_every st st_new states t_save
        else run_loop fuel tend save_every st st_new states t_save
      else Ok (st, states)
  end.

(** run, model.py:49-89 *)
Definition run (fuel : nat) (init : state K) (dt tend save_every : pyval K) : res (state K * runlist) :=
  do past <- py_lt tend (s_time init);
  if past then Ok (init, PlainList [init])
  else
    do st_new <- euler init dt;
    do (st, states) <- run_loop fuel tend save_every init st_new [init] save_every;
    do l <- statelist_of states;
    Ok (st, AStateList l).
End Model.
Arguments runlist : clear implicits.
Arguments PlainList {K}. Arguments AStateList {K}.
