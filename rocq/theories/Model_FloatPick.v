(** The selection of a single coordinate (grid.py:798-803, 833-838) in IEEE binary64.

    np.isclose(a, b) of NumPy:
    less_equal(abs(a - b), atol + rtol * abs(b)) & isfinite(b) | (a == b). *)
From Coq Require Import List Bool.
From Verif Require Import Base Model_Float Model_FloatGrid.
Import ListNotations.

(** the doubles 1e-8 and 1e-5 *)
Definition atol_b64 : b64 := S754_finite false 6044629098073146 (-79).
Definition rtol_b64 : b64 := S754_finite false 5902958103587057 (-69).
Definition isfinite_b64 (x : b64) : bool :=
  match x with S754_zero _ | S754_finite _ _ _ => true | _ => false end.
Definition isclose_b64 (a b : b64) : bool :=
  (SFleb (SFabs (b64_sub a b)) (b64_add atol_b64 (b64_mul rtol_b64 (SFabs b))) && isfinite_b64 b) || SFeqb a b.
(** np.argwhere(np.isclose(coord, x)).flatten() and the size check *)
Definition pick_single_b64 (coord : list b64) (x : b64) : res (list nat) :=
  let idx := pick_b64 coord (fun c => isclose_b64 c x) in
  if Nat.eqb (length idx) 1 then Ok idx else Err IndexError.
