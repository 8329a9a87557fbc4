(** Specification vocabulary for StateList. *)
From Coq Require Export String.
From Verif Require Import Base Model_Grid Model_Time Model_State Model_Run Model_StateList.
From Coq Require Import List Lia ZArith.
Import ListNotations.
Open Scope R_scope.

(** all states of the list have the grid of the first one, as judged by Grid.__eq__ *)
Definition on_first_grid {K} (l : list (state K)) : Prop :=
  forall s0, hd_error l = Some s0 -> forall s, In s l -> grid_eqb (s_grid s0) (s_grid s) = true.
Definition pairwise_equal_grids {K} (l : list (state K)) : Prop :=
  forall a b, In a l -> In b l -> grid_eqb (s_grid a) (s_grid b) = true.

(** position of the first element that must not enter the list after [good] *)
Definition first_bad_is {K E O} (bad : value K E O -> Prop) (l : list (value K E O)) : Prop :=
  exists good x rest, l = map XState good ++ x :: rest /\ on_first_grid good /\ bad x.
Definition not_a_state {K E O} (x : value K E O) : Prop := forall s, x <> XState s.

(** indexing a container from the outside *)
Definition slab {E} (n : nat) (i : nat) (l : list E) : list E := firstn n (skipn (i * n) l).
Inductive item {K E O} : container K E O -> nat -> value K E O -> Prop :=
| item_number n d i x : (i < n)%nat -> nth_error d i = Some x -> item (CArray (mkNd [n] d)) i (XNum x)
| item_array n sh d i : (i < n)%nat -> sh <> nil -> item (CArray (mkNd (n :: sh) d)) i (XArr (mkNd sh (slab (size_of sh) i d)))
| item_state l i s : nth_error l i = Some s -> item (CStates l) i (XState s)
| item_object l i v : nth_error l i = Some v -> item (CList l) i v.
Inductive container_length {K E O} : container K E O -> nat -> Prop :=
| len_array n sh d : container_length (CArray (mkNd (n :: sh) d)) n
| len_states l : container_length (CStates l) (length l)
| len_list l : container_length (CList l) (length l).
(** a zero-dimensional array is the number it contains *)
Inductive same_value {K E O} : value K E O -> value K E O -> Prop :=
| same_refl v : same_value v v
| same_scalar x : same_value (XArr (mkNd nil [x])) (XNum x).

(** arrays contain as many elements as their shape says *)
Definition proper {K E O} (v : value K E O) : Prop :=
  match v with XArr a => length (nd_data a) = size_of (nd_shape a) | _ => True end.

Definition array_value {K E O} (v : value K E O) : Prop := exists a, v = XArr a.
Definition number_value {K E O} (v : value K E O) : Prop := exists x, v = XNum x.
Definition state_value {K E O} (v : value K E O) : Prop := exists s, v = XState s.
Definition is_array {K E O} (c : container K E O) : Prop := exists a, c = CArray a.
Definition is_statelist {K E O} (c : container K E O) : Prop := exists l, c = CStates l.
Definition is_list {K E O} (c : container K E O) : Prop := exists l, c = CList l.

(** Slices.  A bound below zero counts from the end.  Going up, the first
    position is the start, but not below 0, and all others follow in steps up to
    the stop; going down, from the start, but not beyond the last position. *)
Definition from_end (n i : Z) : Z := if (i <? 0)%Z then (n + i)%Z else i.
Definition in_slice (n : Z) (start stop : option Z) (step p : Z) : Prop :=
  (0 <= p < n)%Z
  /\ if (0 <? step)%Z
     then let first := match start with Some i => Z.max 0 (from_end n i) | None => 0%Z end in
          (first <= p)%Z /\ Z.divide step (p - first) /\ (forall i, stop = Some i -> (p < from_end n i)%Z)
     else let first := match start with Some i => Z.min (n - 1) (from_end n i) | None => (n - 1)%Z end in
          (p <= first)%Z /\ Z.divide step (p - first) /\ (forall i, stop = Some i -> (from_end n i < p)%Z).
(** in the order of the steps, without repetition *)
Fixpoint in_order (step : Z) (ps : list Z) : Prop :=
  match ps with
  | [] => True
  | p :: ps => Forall (fun q => (0 < (q - p) * step)%Z) ps /\ in_order step ps
  end.
