(** Model of formatting.py:5-30 and the rounding of Python numbers. *)
From Coq Require Export String.
From Verif Require Export Base.
From Coq Require Import Decimal DecimalZ.

(** Python's round(x) and the rounding of format specifiers: to nearest, ties to even *)
Definition round_even (x : R) : Z :=
  let f := Int_part x in
  if Rltb (x - IZR f) (1 / 2) then f
  else if Rltb (1 / 2) (x - IZR f) then (f + 1)%Z
  else if Z.even f then f else (f + 1)%Z.

(** Text as the list of its code points. *)
Notation text := (list Z).

(** str(n) of an integer *)
Fixpoint uint_text (d : uint) : text :=
  match d with
  | Nil => []
  | D0 d => 48%Z :: uint_text d
  | D1 d => 49%Z :: uint_text d
  | D2 d => 50%Z :: uint_text d
  | D3 d => 51%Z :: uint_text d
  | D4 d => 52%Z :: uint_text d
  | D5 d => 53%Z :: uint_text d
  | D6 d => 54%Z :: uint_text d
  | D7 d => 55%Z :: uint_text d
  | D8 d => 56%Z :: uint_text d
  | D9 d => 57%Z :: uint_text d
  end.
Definition int_text (n : Z) : text :=
  match Z.to_int n with Decimal.Pos d => uint_text d | Decimal.Neg d => 45%Z :: uint_text d end.

(** str.maketrans tables, formatting.py:5-6, for "0123456789+-" *)
Definition sub_char (c : Z) : Z :=
  if ((48 <=? c) && (c <=? 57))%Z then (c + 8272)%Z
  else if (c =? 43)%Z then 8330%Z
  else if (c =? 45)%Z then 8331%Z
  else c.
Definition sup_char (c : Z) : Z :=
  if (c =? 49)%Z then 185%Z
  else if (c =? 50)%Z then 178%Z
  else if (c =? 51)%Z then 179%Z
  else if ((48 <=? c) && (c <=? 57))%Z then (c + 8256)%Z
  else if (c =? 43)%Z then 8314%Z
  else if (c =? 45)%Z then 8315%Z
  else c.
(** sub, sup, formatting.py:8-12 *)
Definition sub (n : Z) : text := map sub_char (int_text n).
Definition sup (n : Z) : text := map sup_char (int_text n).

(** Time attributes of states: numbers, datetime-like objects with their
    isoformat(), zero-dimensional numeric arrays (as taken from a dataset,
    io.py:336) and other objects. *)
Inductive time_value := TNumber (x : R) | TDatetime (iso : string) | TArray0 (x : R) | TOther.
Inductive time_unit := Us | Umin | Uh | Ud.
(** "t = {:.1f} {}".format(time, unit): the number rounded to tenths *)
Inductive time_text := TimeText (tenths : Z) (u : time_unit) | IsoText (s : string).

(** format_time, formatting.py:14-28.  ndarray is not a numbers.Number. *)
Definition scale_time (time : R) : R * time_unit :=
  let '(time, unit) := (time, Us) in
  let '(time, unit) := if Rltb 120 time then (time / 60, Umin) else (time, unit) in
  let '(time, unit) := if Rltb 120 time then (time / 60, Uh) else (time, unit) in
  if Rltb 240 time then (time / 24, Ud) else (time, unit).
Definition format_time (time : time_value) : res time_text :=
  match time with
  | TNumber time =>
      let '(time, unit) := scale_time time in
      Ok (TimeText (round_even (10 * time)) unit)
  | TDatetime iso => Ok (IsoText iso)
  | TArray0 _ | TOther => Err AttributeError
  end.
(** state_repr, formatting.py:63-64: the text around the formatted time is constant *)
Definition state_repr (time : time_value) : res time_text := format_time time.
