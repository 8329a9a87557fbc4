(** Integrations with a forcing that is switched off (C147). *)
From Coq Require Export String.
From Verif Require Import Base Model_Grid Model_Time Model_Spectral Model_State Model_Run Model_RHS Spec_Run.
From Coq Require Import List.

(** the model with another right-hand side *)
Definition with_rhs {K} (M : bmodel K) (r : option (state K -> res fval)) : bmodel K := mkModel r (m_order M) (m_coeff M) (m_bg M).
(** [m] more leapfrog steps *)
Fixpoint more_steps {K} (T : sphfam) (M : bmodel K) (m : nat) (p : state K * state K) : res (state K * state K) :=
  match m with O => Ok p | S m => do q <- more_steps T M m p; leapfrog T M (fst q) (snd q) default_nu end.
(** the term is a field on the grid in every state *)
Definition gives_fields {K} (T : sphfam) (g : grid) (f : obj K) : Prop :=
  forall s, s_grid s = g -> exists F, call T f s = Ok (FMat F) /\ shaped (g_nlat g) (g_nlon g) F.
