(** Vocabulary for a change of units of a field and of the contours drawn in it. *)
From Coq Require Export String.
From Verif Require Import Base Model_Quad Spec_Sym.

(** the same choice of contours after a change of units of the field: prescribed
    levels are converted, automatic ones follow from the field *)
Definition convert_levels (a b : R) (l : levels_arg) : levels_arg :=
  match l with LArr v => LArr (map (affine a b) v) | _ => l end.
