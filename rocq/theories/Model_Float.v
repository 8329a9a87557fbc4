(** The shape computation of Grid.__init__ (grid.py:52-53) in IEEE binary64,
    using the executable formalisation [SpecFloat] of the Coq standard library
    (round to nearest, ties to even). *)
From Coq Require Export ZArith Floats.SpecFloat.

Definition b64 := spec_float.
Definition b64_prec : Z := 53.
Definition b64_emax : Z := 1024.
Definition b64_add : b64 -> b64 -> b64 := SFadd b64_prec b64_emax.
Definition b64_sub : b64 -> b64 -> b64 := SFsub b64_prec b64_emax.
Definition b64_mul : b64 -> b64 -> b64 := SFmul b64_prec b64_emax.
Definition b64_div : b64 -> b64 -> b64 := SFdiv b64_prec b64_emax.
Definition b64_ltb : b64 -> b64 -> bool := SFltb.
(** the double nearest to an integer: Python's float(n) *)
Definition b64_of_Z (z : Z) : b64 := binary_normalize b64_prec b64_emax z 0 false.

(** Python's int(x) on a float: truncation toward zero; None where Python
    raises (infinity: OverflowError, NaN: ValueError). *)
Definition b64_int (x : b64) : option Z :=
  match x with
  | S754_zero _ => Some 0%Z
  | S754_finite s m e =>
      let a := match e with
               | Z0 => Zpos m
               | Zpos p => (Zpos m * 2 ^ Zpos p)%Z
               | Zneg p => (Zpos m / 2 ^ Zpos p)%Z
               end in
      Some (if s then (- a)%Z else a)
  | _ => None
  end.

(** grid.py:52-53 with float [resolution] *)
Definition nlon_b64 (resolution : b64) : option Z :=
  b64_int (b64_div (b64_of_Z 360) resolution).
Definition nlat_b64 (resolution : b64) : option Z :=
  option_map (fun k => (k + 1)%Z) (b64_int (b64_div (b64_of_Z 180) resolution)).
(** the Python expressions 180/n and 360/n with integer n *)
Definition resolution_180 (n : Z) : b64 := b64_div (b64_of_Z 180) (b64_of_Z n).
Definition resolution_360 (n : Z) : b64 := b64_div (b64_of_Z 360) (b64_of_Z n).
