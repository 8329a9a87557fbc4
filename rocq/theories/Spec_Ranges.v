(** Vocabulary for ranges of wavenumbers given by integers. *)
From Coq Require Import ZArith.

(** the wavenumber [k] lies between [kmin] and [kmax] *)
Definition asked_for (kmin kmax : Z) (k : nat) : Prop := (kmin <= Z.of_nat k <= kmax)%Z.
(** negative numbers count down from the number after the largest wavenumber h *)
Definition counted (h : nat) (k : Z) : Z := if (k <? 0)%Z then (k + Z.of_nat h + 1)%Z else k.
(** the wavenumbers that remain: from [kmin] (counted) to before [kmax + 1] (counted) *)
Definition remains (h : nat) (kmin kmax : Z) (k : nat) : Prop :=
  (counted h kmin <= Z.of_nat k < counted h (kmax + 1))%Z.
