(** Vocabulary for the statements about textual representations. *)
From Coq Require Export String.
From Verif Require Export Base.
From Verif Require Import Model_RHS.
From Coquelicot Require Import Complex.
From Coq Require Import List.
Open Scope R_scope.

Notation code_points := (list Z).
(** The text of a float determines the float; [float] are the numbers that are
    floats (there are more real numbers than texts) *)
Definition faithful (float : R -> Prop) (str : R -> code_points) : Prop := forall x y, float x -> float y -> str x = str y -> x = y.
(** Text on a single line *)
Definition single_line (t : code_points) : Prop := ~ In 10%Z t.

(** What a forcing expression is composed of *)
Fixpoint terms_of {K} (a : obj K) : list (obj K) :=
  match a with PSum a b | PProd a b => terms_of a ++ terms_of b | _ => [a] end.
(** No parentheses (40, 41), and no space (32) followed by + (43) or * (42) *)
Definition plain (t : code_points) : Prop :=
  ~ In 40%Z t /\ ~ In 41%Z t /\ forall a b, t <> a ++ [32; 43]%Z ++ b /\ t <> a ++ [32; 42]%Z ++ b.

(** nabla to the even power e of the component of a field in the spherical
    harmonics of degree n on a sphere of radius r: the Laplacian multiplies it by
    - n (n + 1) / r^2 *)
Definition nabla_power (r : R) (n : nat) (e : Z) (q : C) : C :=
  Cmult (RtoC ((- (INR n * (INR n + 1) / r ^ 2)) ^ Z.to_nat (e / 2))) q.

(** UTF-8 (RFC 3629) for the code points below 65536 *)
Definition utf8_bytes (c : Z) : list Z :=
  if Z.ltb c 128 then [c]
  else if Z.ltb c 2048 then [192 + Z.div c 64; 128 + Z.modulo c 64]%Z
  else [224 + Z.div c 4096; 128 + Z.modulo (Z.div c 64) 64; 128 + Z.modulo c 64]%Z.
