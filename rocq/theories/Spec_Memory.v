(** Vocabulary for arrays in memory (Model_Memory.v). *)
From Coq Require Export String.
From Verif Require Export Model_Memory Spec_State.
From Coq Require Import List.
Import ListNotations.
Open Scope R_scope.

(** array number a has the contents x *)
Definition holds {K} (m : memory K) (a : nat) (x : fieldval) : Prop := nth_error (arrays m) a = Some x.

(** the state that State object number i stands for *)
Definition shows {K} (m : memory K) (i : nat) (s : state K) : Prop :=
  exists o x, nth_error (objects m) i = Some o /\ holds m (t_pv_spectral o) (FS x)
  /\ s = mkState (t_grid o) (t_time o) x.

(** the arrays that a State object keeps *)
Definition slots {K} (o : stored K) : list nat :=
  t_pv_spectral o :: flat_map (fun x => match x with Some a => [a] | None => [] end)
    [t_pv o; t_u o; t_v o; t_streamfunction o; t_pv_zonalized o; t_falwa o].
(** an array that no State object keeps *)
Definition unshared {K} (m : memory K) (a : nat) : Prop :=
  (a < List.length (arrays m))%nat /\ forall i o, nth_error (objects m) i = Some o -> ~ In a (slots o).

(** every State object stands for a state, and what it keeps are the fields of
    that state *)
Definition slot_ok {K} (T : sphfam) (D : diagnostics) (m : memory K) (s : state K) (a : attribute) (x : option nat) : Prop :=
  forall b, x = Some b -> exists y, field_value T D s a = Ok y /\ holds m b y.
Definition sound {K} (T : sphfam) (D : diagnostics) (m : memory K) : Prop :=
  forall i o, nth_error (objects m) i = Some o -> exists s, shows m i s
  /\ slot_ok T D m s Apv (t_pv o) /\ slot_ok T D m s Au (t_u o) /\ slot_ok T D m s Av (t_v o)
  /\ slot_ok T D m s Astreamfunction (t_streamfunction o)
  /\ slot_ok T D m s Apv_zonalized (t_pv_zonalized o) /\ slot_ok T D m s Afalwa (t_falwa o)
  /\ (t_u o = None <-> t_v o = None).

(** nothing that was there has changed: arrays have kept their contents, State
    objects show the same state *)
Definition preserved {K} (m m' : memory K) : Prop :=
  (forall a x, holds m a x -> holds m' a x) /\ (forall i s, shows m i s -> shows m' i s).

(** growth of the memory: new arrays and new State objects are added, empty slots
    are filled, and only with new arrays *)
Definition slot_stays (x x' : option nat) : Prop := forall a, x = Some a -> x' = Some a.
Record stays {K} (o o' : stored K) : Prop := {
  st_grid : t_grid o' = t_grid o;
  st_time : t_time o' = t_time o;
  st_pvs : t_pv_spectral o' = t_pv_spectral o;
  st_pv : slot_stays (t_pv o) (t_pv o');
  st_u : slot_stays (t_u o) (t_u o');
  st_v : slot_stays (t_v o) (t_v o');
  st_psi : slot_stays (t_streamfunction o) (t_streamfunction o');
  st_zon : slot_stays (t_pv_zonalized o) (t_pv_zonalized o');
  st_lwa : slot_stays (t_falwa o) (t_falwa o')
}.
Record extends {K} (m m' : memory K) : Prop := {
  ext_arrays : exists l, arrays m' = arrays m ++ l;
  ext_objects : forall i o, nth_error (objects m) i = Some o -> exists o', nth_error (objects m') i = Some o' /\ stays o o';
  ext_slots : forall i o' a, nth_error (objects m') i = Some o' -> In a (slots o') ->
    (List.length (arrays m) <= a)%nat \/ exists o, nth_error (objects m) i = Some o /\ In a (slots o)
}.
(** the program run from m ends with the same result or the same exception as the
    pure computation r; the memory has only grown and is sound *)
Definition outcome {K} (T : sphfam) (D : diagnostics) {A B} (m : memory K) (q : res A * memory K) (r : res B)
    (P : memory K -> A -> B -> Prop) : Prop :=
  sound T D (snd q) /\ extends m (snd q)
  /\ match fst q, r with Ok a, Ok b => P (snd q) a b | Err e, Err e' => e = e' | _, _ => False end.

(** the attributes that hand out an array which the State keeps *)
Definition keeps (a : attribute) : bool :=
  match a with
  | Apv | Aavo | Apv_spectral | Au | Av | Astreamfunction | Apv_zonalized | Afalwa => true
  | _ => false
  end.

(** the number or array v has the value x; a forcing program that computes the
    forcing f and changes nothing *)
Definition shows_value {K} (m : memory K) (v : value) (x : fval) : Prop :=
  match v, x with
  | VPlain c, FNum d => c = d
  | VArray a, FMat f => holds m a (FM f)
  | _, _ => False
  end.
Definition forcing_program {K} (T : sphfam) (D : diagnostics) (p : nat -> prog K value) (f : state K -> res fval) : Prop :=
  forall m i s, sound T D m -> shows m i s -> outcome T D m (p i m) (f s) shows_value.
(** a model program and the pure model with the same parameters *)
Definition same_model {K} (T : sphfam) (D : diagnostics) (M : program_model K) (N : bmodel K) : Prop :=
  p_order M = m_order N /\ p_coeff M = m_coeff N /\ p_bg M = m_bg N
  /\ match p_rhs M, m_rhs N with
     | None, None => True
     | Some p, Some f => forcing_program T D p f
     | _, _ => False
     end.

(** ** What a user does: makes arrays, builds States, reads attributes, writes
    into arrays, integrates *)
Inductive action (K : numtype) :=
| DoArray (x : fieldval)                                        (* a new array *)
| DoState (g : grid) (time : pyval K) (pv : nat)                (* State(g, time, pv=array) *)
| DoSpectral (g : grid) (time : pyval K) (pv_spectral : nat)    (* State(g, time, pv_spectral=array) *)
| DoGet (i : nat) (a : attribute)                               (* an attribute of State object i *)
| DoWrite (a : nat) (x : fieldval)                              (* array[...] = x *)
| DoRun (fuel : nat) (i : nat) (dt tend save_every : pyval K).  (* model.run(state, ...) *)
Arguments DoArray {K}. Arguments DoState {K}. Arguments DoSpectral {K}. Arguments DoGet {K}. Arguments DoWrite {K}. Arguments DoRun {K}.

Section Scripts.
Context {K : numtype} (T : sphfam) (D : diagnostics) (M : program_model K).
(** memory after an action, and the array that it returned *)
Definition returned {A} (p : res A * memory K) (f : A -> option nat) : option nat * memory K :=
  (match fst p with Ok a => f a | Err _ => None end, snd p).
Definition act (c : action K) (m : memory K) : option nat * memory K :=
  match c with
  | DoArray x => returned (alloc x m) Some
  | DoState g time a => returned (state_of_pv T g time a m) (fun _ => None)
  | DoSpectral g time a => returned (state_of_spectral g time a m) (fun _ => None)
  | DoGet i a => returned (get_attribute T D a i m) Some
  | DoWrite a x => returned (store a x m) (fun _ => None)
  | DoRun fuel i dt tend save => returned (do_run T M fuel i dt tend save m) (fun _ => None)
  end.
Definition script (l : list (action K)) (m : memory K) : memory K := fold_left (fun m c => snd (act c m)) l m.

(** [careful own l m]: along the script, the user writes only into arrays of their
    own: arrays they made and did not use as pv_spectral, and arrays returned by
    attributes that are not kept; pv_spectral arguments are spectral arrays of
    their own. *)
Fixpoint careful (own : list nat) (l : list (action K)) (m : memory K) : Prop :=
  match l with
  | [] => True
  | c :: l =>
      let own' := match fst (act c m) with Some a => a :: own | None => own end in
      match c with
      | DoWrite a _ => In a own /\ careful own l (snd (act c m))
      | DoSpectral _ _ a => In a own /\ (exists x, holds m a (FS x)) /\ careful (filter (fun b => negb (Nat.eqb a b)) own) l (snd (act c m))
      | DoGet _ a => careful (if keeps a then own else own') l (snd (act c m))
      | _ => careful own' l (snd (act c m))
      end
  end.
End Scripts.
