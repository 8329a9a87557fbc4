(** Vocabulary for the stationary wavenumber on the rotated and on the reflected sphere. *)
From Coq Require Export String.
From Verif Require Import Base Model_Grid Model_Ks Spec_Sym Spec_Symmetry Spec_Ks Model_Region.
From Coq Require Import List.
Open Scope R_scope.

(** profiles and fields reflected in the equator and multiplied by s, with
    renumbered longitudes *)
Definition mirror_array (s : R) (f : ndarray) : ndarray :=
  match f with A1 v => A1 (map (Rmult s) (rev v)) | A2 m => A2 (mirror s m) | AOther => AOther end.
Definition relabel_array (p : nat -> nat) (f : ndarray) : ndarray :=
  match f with A2 m => A2 (relabel 0 p m) | _ => f end.
Definition rev_result (r : ks_result) : ks_result :=
  match r with KsReal v => KsReal (rev v) | KsComplex v => KsComplex (rev v) end.
(** waveguides from north to south seen from the other hemisphere *)
Definition mirror_waveguides (l : list (ext * ext)) : list (ext * ext) :=
  rev (map (fun p => (eopp (snd p), eopp (fst p))) l).
(** k is not a value of the profile *)
Definition never_equal (k : R) (ks : list ext) : Prop := Forall (fun a => a <> Fin k) ks.
