(** Specification vocabulary for the constructors of the mountains and for sums
    of reliefs. *)
From Coq Require Export String.
From Verif Require Export Base.
From Verif Require Import Model_Grid Model_RHS Model_Mountain.
From Coq Require Import List.
Import ListNotations.
Open Scope R_scope.

(** the value an argument has: the one given, or the default *)
Definition argument (k : kwds) (name : string) (default v : pv) : Prop :=
  In (name, v) k \/ (~ In name (map fst k) /\ v = default).
Definition wind_names : list string := ["act"; "zon"; "sbr"]%string.
Definition base_names : list string := ["scale_height"; "wind"; "fcor_ref"]%string.
Definition gauss_names : list string := app ["height"; "center"; "stdev"]%string base_names.
Definition sine_names : list string := app ["height"; "center_lat"; "stdev_lat"; "wavenumber"]%string base_names.
Definition names_ok (names : list string) (k : kwds) : Prop := forall n v, In (n, v) k -> In n names.

(** what can be split into two, and the exception otherwise *)
Definition two (v : pv) : Prop := (exists a b, v = PvSeq [a; b]) \/ (exists s, v = PvStr s /\ String.length s = 2%nat).
Definition iterable (v : pv) : Prop := (exists l, v = PvSeq l) \/ (exists s, v = PvStr s).
Definition wind_ok (v : pv) : Prop := exists kind fact, v = PvSeq [PvStr kind; fact] /\ In kind wind_names.
Definition width_ok (v : pv) : Prop := (exists x, v = PvNum x) \/ (exists x y l, v = PvSeq (PvNum x :: PvNum y :: l)).
(** a standard deviation that runs out of entries before a non-number is met *)
Definition width_short (v : pv) : Prop := v = PvStr "" \/ v = PvSeq [] \/ exists x, v = PvSeq [PvNum x].

(** The arguments accepted by the constructors *)
Definition gauss_ok (k : kwds) : Prop := names_ok gauss_names k
  /\ (forall v, In ("wind"%string, v) k -> wind_ok v) /\ (forall v, In ("center"%string, v) k -> two v)
  /\ (forall v, In ("stdev"%string, v) k -> width_ok v).
Definition sine_ok (k : kwds) : Prop := names_ok sine_names k
  /\ (forall v, In ("wind"%string, v) k -> wind_ok v) /\ (forall v, In ("stdev_lat"%string, v) k -> exists x, v = PvNum x).

Definition fcor_of (v : pv) (f : option R) : Prop := (v = PvNone /\ f = None) \/ (exists x, v = PvNum x /\ f = Some x).

(** the documented defaults *)
Definition wind_default : pv := PvSeq [PvStr "act"; PvNum 1].
Definition center_default : pv := PvSeq [PvNum 30; PvNum 45].
Definition stdev_default : pv := PvSeq [PvNum (75 / 10); PvNum 20].

(** the same forcing for other reliefs and scale heights *)
Definition with_relief (o : orog) (r : relief) : orog := mkOrog r (o_scale_height o) (o_wind o) (o_fact o) (o_fcor_ref o).
Definition with_scale (o : orog) (r : relief) (hs : R) : orog := mkOrog r hs (o_wind o) (o_fact o) (o_fcor_ref o).
(** [p] = a f + b h + c at every point of an nr x nc field *)
Definition combination (nr nc : nat) (a b c : R) (f h p : mat) : Prop :=
  forall i j, (i < nr)%nat -> (j < nc)%nat -> mget p i j = a * mget f i j + b * mget h i j + c.
