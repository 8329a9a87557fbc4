(** Vocabulary for the statements about binary64 arithmetic. *)
From Coq Require Import Reals ZArith Floats.SpecFloat.
Open Scope R_scope.

(** The number that a float stands for *)
Definition float_value (x : spec_float) : R :=
  match x with
  | S754_finite s m e => (if s then - IZR (Zpos m) else IZR (Zpos m)) * powerRZ 2 e
  | _ => 0
  end.
(** A float that fits into the 64 bits *)
Definition is_double (x : spec_float) : Prop := valid_binary 53 1024 x = true.
(** half a unit in the last place of numbers around 1 *)
Definition half_ulp : R := / 2 ^ 53.
(** n is the integer part of q, or the integer that q falls short of by less than
    the precision of binary64 *)
Definition integer_part_up_to_rounding (q : R) (n : Z) : Prop :=
  IZR n <= q < IZR n + 1 \/ IZR n * (1 - half_ulp) <= q < IZR n.
(** x is a double (neither infinite nor NaN) with the value r *)
Definition denotes (x : spec_float) (r : R) : Prop :=
  is_double x /\ match x with S754_zero _ | S754_finite _ _ _ => True | _ => False end /\ float_value x = r.
(** an integer multiple of a power of two *)
Definition scaled (e z : Z) : R := IZR z * powerRZ 2 e.
