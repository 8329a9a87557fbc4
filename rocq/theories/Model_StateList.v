(** Model of StateList and _convert_sequence (src/barotropic/state.py:398-517). *)
From Coq Require Export String.
From Verif Require Export Base Model_Grid Model_Time Model_Spectral Model_State Model_Run.

(** NumPy arrays of any number of dimensions, elements in row-major order. *)
Record ndarr (E : Type) := mkNd { nd_shape : list nat; nd_data : list E }.
Arguments mkNd {E}. Arguments nd_shape {E}. Arguments nd_data {E}.
Definition size_of (shape : list nat) : nat := fold_right Nat.mul 1%nat shape.
Fixpoint shape_eqb (a b : list nat) : bool :=
  match a, b with
  | [], [] => true
  | x :: a, y :: b => Nat.eqb x y && shape_eqb a b
  | _, _ => false
  end.

(** np.asarray of a list of arrays: stacking along a new first axis.  Arrays of
    unequal shape raise ValueError (NumPy >= 1.24). *)
Definition np_stack {E} (l : list (ndarr E)) : res (ndarr E) :=
  match l with
  | [] => Ok (mkNd (0%nat :: nil) nil)
  | a :: _ =>
      if forallb (fun b => shape_eqb (nd_shape a) (nd_shape b)) l
      then Ok (mkNd (length l :: nd_shape a) (concat (map nd_data l)))
      else Err ValueError
  end.
(** np.asarray of a list of numbers *)
Definition np_of_numbers {E} (l : list E) : ndarr E := mkNd (length l :: nil) l.

Section StateList.
(** [E]: numbers; [O]: objects that are neither arrays, numbers nor States *)
Context {K : numtype} {E O : Type}.

Inductive value :=
| XArr (a : ndarr E)
| XNum (x : E)
| XState (s : state K)
| XObj (o : O).

(** StateList.__init__, state.py:433-439: the checks run in list order, the grid
    compared with is that of the first element *)
Fixpoint sl_check (g0 : option grid) (l : list value) : res (list (state K)) :=
  match l with
  | [] => Ok []
  | XState s :: l =>
      let g := match g0 with Some g => g | None => s_grid s end in
      passert (grid_eqb g (s_grid s)) (do t <- sl_check (Some g) l; Ok (s :: t))
  | _ :: _ => Err TypeError
  end.
Definition mk_statelist (l : list value) : res (list (state K)) := sl_check None l.

(** _convert_sequence, state.py:398-417 *)
Inductive container :=
| CArray (a : ndarr E)
| CStates (l : list (state K))
| CList (l : list value).
Fixpoint all_arrays (l : list value) : option (list (ndarr E)) :=
  match l with
  | [] => Some []
  | XArr a :: l => match all_arrays l with Some t => Some (a :: t) | None => None end
  | _ :: _ => None
  end.
Fixpoint all_numbers (l : list value) : option (list E) :=
  match l with
  | [] => Some []
  | XNum x :: l => match all_numbers l with Some t => Some (x :: t) | None => None end
  | _ :: _ => None
  end.
Definition is_state (v : value) : bool := match v with XState _ => true | _ => false end.
Definition convert_sequence (l : list value) : res container :=
  match all_arrays l with
  | Some arrays => do a <- np_stack arrays; Ok (CArray a)
  | None =>
      match all_numbers l with
      | Some xs => Ok (CArray (np_of_numbers xs))
      | None =>
          if forallb is_state l
          then do states <- mk_statelist l; Ok (CStates states)
          else Ok (CList l)
      end
  end.

(** Sequence interface, state.py:441-449.  Subscripts are integers or slices; the
    tuple self._states answers a slice with a tuple. *)
Inductive subscript := SInt (i : Z) | SSlice (start stop step : option Z).
Inductive selected := OneState (s : state K) | ATuple (l : list (state K)) | SomeStateList (l : list (state K)).
(** slice(start, stop, step).indices(n) of Python followed by range *)
Definition clamp (lower upper n i : Z) : Z :=
  if (i <? 0)%Z then Z.max (i + n) lower else Z.min i upper.
Definition slice_range (n : Z) (start stop : option Z) (step : Z) : Z * nat :=
  let lower := if (step <? 0)%Z then (-1)%Z else 0%Z in
  let upper := if (step <? 0)%Z then (n - 1)%Z else n in
  let a := match start with Some i => clamp lower upper n i | None => if (step <? 0)%Z then upper else lower end in
  let b := match stop with Some i => clamp lower upper n i | None => if (step <? 0)%Z then lower else upper end in
  let count := if (step <? 0)%Z
               then if (b <? a)%Z then ((a - b - 1) / (- step) + 1)%Z else 0%Z
               else if (a <? b)%Z then ((b - a - 1) / step + 1)%Z else 0%Z in
  (a, Z.to_nat count).
Fixpoint nth_errors {A} (l : list A) (is : list Z) : res (list A) :=
  match is with
  | [] => Ok []
  | i :: is =>
      match nth_error l (Z.to_nat i) with
      | Some x => do t <- nth_errors l is; Ok (x :: t)
      | None => Err IndexError
      end
  end.
Definition sl_getitem (l : list (state K)) (i : subscript) : res selected :=
  let n := Z.of_nat (length l) in
  match i with
  | SInt i =>
      let j := if (i <? 0)%Z then (i + n)%Z else i in
      if ((0 <=? j) && (j <? n))%Z
      then match nth_error l (Z.to_nat j) with Some s => Ok (OneState s) | None => Err IndexError end
      else Err IndexError
  | SSlice start stop step =>
      let step := match step with Some k => k | None => 1%Z end in
      if (step =? 0)%Z then Err ValueError
      else
        let '(a, count) := slice_range n start stop step in
        do t <- nth_errors l (map (fun k => (a + Z.of_nat k * step)%Z) (seq 0 count));
        Ok (ATuple t)
  end.

(** __add__, state.py:454-455; the other operand is any iterable *)
Definition sl_add (self : list (state K)) (other : list value) : res (list (state K)) :=
  mk_statelist (map XState self ++ other).

(** map, state.py:471-486; [f] is the function with the additional arguments filled in *)
Definition sl_map (f : state K -> res value) (self : list (state K)) : res container :=
  do vs <- res_map f self; convert_sequence vs.
(** __getattr__, state.py:459-469: what the name denotes on the State class decides *)
Inductive member (A : Type) :=
| Attribute (f : state K -> res value)
| Method (f : state K -> A -> res value).
Inductive lookup (A : Type) :=
| Broadcast (r : res container)
| Partial (f : A -> res container).
Arguments Attribute {A}. Arguments Method {A}. Arguments Broadcast {A}. Arguments Partial {A}.
Definition sl_getattr {A} (m : member A) (self : list (state K)) : lookup A :=
  match m with
  | Method f => Partial (fun args => sl_map (fun s => f s args) self)
  | Attribute f => Broadcast (do vs <- res_map f self; convert_sequence vs)
  end.

(** grid, state.py:509-512 *)
Definition sl_grid (self : list (state K)) : option grid :=
  match self with s :: _ => Some (s_grid s) | [] => None end.

End StateList.
Arguments value : clear implicits.
Arguments container : clear implicits.
Arguments member : clear implicits.
Arguments lookup : clear implicits.
Arguments selected : clear implicits.
Arguments Attribute {K E O A}. Arguments Method {K E O A}.
Arguments Broadcast {K E O A}. Arguments Partial {K E O A}.

(** run, state.py:488-505 *)
Fixpoint sl_run_all {K} (T : sphfam) (M : bmodel K) (fuel : nat) (dt tend save_every : pyval K)
    (self all_last : list (state K)) (all_step : list (runlist K)) : res (list (state K) * list (runlist K)) :=
  match self with
  | [] => Ok (all_last, all_step)
  | s :: self =>
      do (last, step) <- run T M fuel s dt tend save_every;
      sl_run_all T M fuel dt tend save_every self (all_last ++ [last]) (all_step ++ [step])
  end.
Definition sl_run {K} (T : sphfam) (M : bmodel K) (fuel : nat) (dt tend save_every : pyval K)
    (self : list (state K)) : res (list (state K) * list (runlist K)) :=
  do (last, step) <- sl_run_all T M fuel dt tend save_every self [] [];
  do states <- mk_statelist (E := R) (O := unit) (map XState last);
  Ok (states, step).
