(** Model of the input of diagnostics (src/barotropic/diagnostics.py:9-18): a State
    without grid or an array with or without its grid.  A State together with a
    grid, which NumPy turns into an array without dimensions that holds the State,
    is outside the model. *)
From Coq Require Export String.
From Verif Require Export Base Model_Grid Model_Spectral Model_State Model_Falwa Model_Ks Model_Region.

Inductive diag_input (K : numtype) (A : Type) := InState (s : state K) | InArray (a : A) (g : option grid).
Arguments InState {K A}. Arguments InArray {K A}.

(** _get_grid_vars(which, grid, field), diagnostics.py:9-18.  [attrs] are the
    attributes of the State that a function asks for, [alone] is what it works
    with if only the first one is given.  An array has no attribute grid. *)
Definition get_grid_vars {K A B} (attrs : state K -> B) (alone : A -> B) (x : diag_input K A) : res (grid * B) :=
  match x with
  | InState s => Ok (s_grid s, attrs s)
  | InArray a (Some g) => Ok (g, alone a)
  | InArray _ None => Err AttributeError
  end.

(** falwa and fawa with interpolate=True, diagnostics.py:32-97 *)
Definition diag_falwa {K} (T : sphfam) (x : diag_input K mat) (levels : levels_arg) (qd : string) :=
  do (g, pv) <- get_grid_vars (s_pv T) (fun m => m) x; falwa g pv levels qd.
Definition diag_fawa {K} (T : sphfam) (x : diag_input K mat) (levels : levels_arg) (qd : string) :=
  do (g, pv) <- get_grid_vars (s_pv T) (fun m => m) x; fawa g pv levels qd.
(** stationary_wavenumber, diagnostics.py:251-312 *)
Definition diag_stationary_wavenumber {K} (T : sphfam) (x : diag_input K ndarray)
    (order : order_arg) (min_u : R) (kind : string) : res ks_result :=
  do (g, v) <- get_grid_vars (fun s => (A2 (s_u T s), Some (A2 (s_pv T s)))) (fun a => (a, None)) x;
  stationary_wavenumber g (fst v) (snd v) order min_u kind.
