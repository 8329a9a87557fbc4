(** Model of the diagnostic shortcuts of State that combine several diagnostics. *)
From Verif Require Export Model_Figure.

Section Shortcuts.
Context {K : numtype} (T : sphfam).
(** State.falwa_filtered, state.py:255-268.  If FALWA contains NaN (C69), the
    model stops with NotANumber while the code carries on with a field that
    contains NaN. *)
Definition falwa_filtered (s : state K) : res mat :=
  do dominant_wavenumber <- dominant_wavenumber_fourier (s_v T s) (s_grid s) (Some (ByName Boxcar 10)) 1 20;
  do lwa <- falwa (s_grid s) (s_pv T s) LNone "sptrapz";
  do lwa <- match finite_rows lwa with Some m => Ok m | None => Err NotANumber end;
  match dominant_wavenumber with
  | A1 k => filter_by_wavenumber lwa (A1 (vscale 2 k))
  | A2 k => filter_by_wavenumber lwa (A2 (mscale 2 k))
  | AOther => Err IndexError
  end.
(** State.v_envelope_hilbert, state.py:270-276 *)
Definition v_envelope_hilbert (s : state K) : res mat := envelope_hilbert (s_v T s) 2 10.
End Shortcuts.
