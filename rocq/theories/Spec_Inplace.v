(** Vocabulary for programs on memory: what an array holds, and what it means to
    compute a new array without changing what exists. *)
From Coq Require Export String.
From Verif Require Export Base Model_Inplace.
From Coq Require Import List.
Import ListNotations.

(** the values of an array *)
Definition held {A} (d : A) (m : list A) (a : arr) : list A := map (fun p => nth p m d) a.
Definition held2 {A} (d : A) (m : list A) (a : arr2) : list (list A) := map (held d m) a.
(** all cells of an array exist *)
Definition present {A} (m : list A) (a : arr) : Prop := Forall (fun p => (p < length m)%nat) a.
Definition present2 {A} (m : list A) (a : arr2) : Prop := Forall (present m) a.

(** The program keeps all cells of the memory m, and returns an array of new,
    distinct cells which hold the values v, or raises the exception e. *)
Definition computes {A} (d : A) (p : prog A arr) (m : list A) (r : res (list A)) : Prop :=
  exists new, fst (p m) = m ++ new
    /\ match r with
       | Err e => snd (p m) = Err e
       | Ok v => exists a, snd (p m) = Ok a /\ held d (m ++ new) a = v
                 /\ NoDup a /\ Forall (fun q => (length m <= q < length (m ++ new))%nat) a
       end.
Definition computes2 {A} (d : A) (p : prog A arr2) (m : list A) (r : res (list (list A))) : Prop :=
  exists new, fst (p m) = m ++ new
    /\ match r with
       | Err e => snd (p m) = Err e
       | Ok v => exists a, snd (p m) = Ok a /\ held2 d (m ++ new) a = v
                 /\ NoDup (concat a) /\ Forall (fun q => (length m <= q < length (m ++ new))%nat) (concat a)
       end.
(** the same for a program whose array the caller does not have yet: everything
    but the given cells is kept *)
Definition keeps_others {A} (d : A) (own : arr) (m m' : list A) : Prop :=
  length m' = length m /\ forall q, ~ In q own -> nth q m' d = nth q m d.

(** results of functions of arrays of any dimension *)
Definition the_field (r : res ndarray) : res mat := do a <- r; match a with A2 d => Ok d | _ => Err TypeError end.
Definition the_profile (r : res ndarray) : res vec := do a <- r; match a with A1 d => Ok d | _ => Err TypeError end.
