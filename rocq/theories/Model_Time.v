(** Python values used as model times and time intervals: numbers (seconds),
    datetime and timedelta objects.  Used by state.py, model.py and rhs.py.

    The arithmetic of numbers is a parameter: exact reals, or IEEE binary64 for
    the properties about rounding.  datetime and timedelta are integer numbers of
    microseconds (since some epoch); their finite range (OverflowError) is not
    modelled. *)
From Coq Require Export String.
From Verif Require Export Base Model_Float.

Record numtype := mkNum {
  nT : Type;
  n_zero : nT;
  n_add : nT -> nT -> nT;
  n_sub : nT -> nT -> nT;
  n_lt : nT -> nT -> bool;
  n_le : nT -> nT -> bool;
  n_R : nT -> R       (* the real number denoted; used when multiplying fields *)
}.
Definition numR : numtype := mkNum R 0 Rplus Rminus Rltb Rleb (fun x => x).

(** value of a binary64 number; infinities and NaN are mapped to 0 *)
Definition b64_R (x : b64) : R :=
  match x with
  | S754_finite s m e => (if s then -1 else 1) * IZR (Zpos m) * powerRZ 2 e
  | _ => 0
  end.
Definition num64 : numtype := mkNum b64 (S754_zero false) b64_add b64_sub SFltb SFleb b64_R.

Inductive pyval (K : numtype) : Type :=
| VNum (x : nT K)
| VDate (us : Z)
| VDelta (us : Z).
Arguments VNum {K} x.
Arguments VDate {K} us.
Arguments VDelta {K} us.

(** a + b *)
Definition py_add {K} (a b : pyval K) : res (pyval K) :=
  match a, b with
  | VNum x, VNum y => Ok (VNum (n_add K x y))
  | VDate x, VDelta y => Ok (VDate (x + y))
  | VDelta x, VDate y => Ok (VDate (x + y))
  | VDelta x, VDelta y => Ok (VDelta (x + y))
  | _, _ => Err TypeError
  end.
(** a - b *)
Definition py_sub {K} (a b : pyval K) : res (pyval K) :=
  match a, b with
  | VNum x, VNum y => Ok (VNum (n_sub K x y))
  | VDate x, VDate y => Ok (VDelta (x - y))
  | VDate x, VDelta y => Ok (VDate (x - y))
  | VDelta x, VDelta y => Ok (VDelta (x - y))
  | _, _ => Err TypeError
  end.
(** a < b and a <= b; b > a and b >= a are the same comparisons *)
Definition py_lt {K} (a b : pyval K) : res bool :=
  match a, b with
  | VNum x, VNum y => Ok (n_lt K x y)
  | VDate x, VDate y => Ok (x <? y)%Z
  | VDelta x, VDelta y => Ok (x <? y)%Z
  | _, _ => Err TypeError
  end.
Definition py_le {K} (a b : pyval K) : res bool :=
  match a, b with
  | VNum x, VNum y => Ok (n_le K x y)
  | VDate x, VDate y => Ok (x <=? y)%Z
  | VDelta x, VDelta y => Ok (x <=? y)%Z
  | _, _ => Err TypeError
  end.

(** model._to_seconds, model.py:178-186; datetime objects have no
    total_seconds method *)
Definition to_seconds {K} (dt : pyval K) : res R :=
  match dt with
  | VNum x => Ok (n_R K x)
  | VDelta us => Ok (IZR us / 1000000)
  | VDate _ => Err AttributeError
  end.
