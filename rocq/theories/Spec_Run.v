(** Specification vocabulary for integrations. *)
From Coq Require Export String.
From Verif Require Import Base Model_Time Model_State Model_Run.
From Verif Require Export Spec_State.
Open Scope R_scope.

(** [n] leapfrog steps from the pair (initial state, Euler step) *)
Fixpoint steps {K} (T : sphfam) (M : bmodel K) (init : state K) (dt : pyval K) (n : nat) : res (state K * state K) :=
  match n with
  | O => do e <- euler T M init dt; Ok (init, e)
  | S n => do p <- steps T M init dt n; leapfrog T M (fst p) (snd p) default_nu
  end.
(** the state after [n] leapfrog steps *)
Definition trajectory {K} (T : sphfam) (M : bmodel K) (init : state K) (dt : pyval K) (n : nat) (s : state K) : Prop :=
  exists new, steps T M init dt n = Ok (s, new).

(** the forcing never raises and returns fields *)
Definition forcing_ok {K} (M : bmodel K) : Prop :=
  match m_rhs M with None => True | Some f => forall s, exists x, f s = Ok (FMat x) end.

(** times of the same kind and their common unit *)
Inductive same_unit : pyval numR -> pyval numR -> Prop :=
| su_time us : same_unit (VDate us) (@VNum numR (IZR us / 1000000)).
Inductive same_interval : pyval numR -> pyval numR -> Prop :=
| su_interval us : same_interval (VDelta us) (@VNum numR (IZR us / 1000000)).
(** states that differ only in the representation of time *)
Definition same_fields (a b : state numR) : Prop :=
  s_grid a = s_grid b /\ s_pvs a = s_pvs b /\ same_unit (s_time a) (s_time b).
Definition same_forcing (A B : bmodel numR) : Prop :=
  m_order A = m_order B /\ m_coeff A = m_coeff B /\ m_bg A = m_bg B
  /\ match m_rhs A, m_rhs B with
     | None, None => True
     | Some f, Some h => forall s s', same_fields s s' -> f s = h s'
     | _, _ => False
     end.

(** the second result of run as a list *)
Definition items {K} (r : runlist K) : list (state K) := match r with PlainList l => l | AStateList l => l end.

(** the forcing is a Python function: it may raise anything but the model's own
    marker for an unfinished loop *)
Definition python_forcing {K} (M : bmodel K) : Prop :=
  match m_rhs M with None => True | Some f => forall s, f s <> Err OutOfFuel end.

(** step [n] is the first one whose time t0 + n*dt is at least [x] *)
Definition first_step (t0 dt x : R) (n : nat) : Prop :=
  (1 <= n)%nat /\ x <= t0 + INR n * dt /\ forall m, (m < n)%nat -> t0 + INR m * dt < x.

(** outcomes of the same integration with datetime and with numeric times *)
Inductive same_result : res (state numR * runlist numR) -> res (state numR * runlist numR) -> Prop :=
| sr_err e : same_result (Err e) (Err e)
| sr_plain s s' l l' : same_fields s s' -> Forall2 same_fields l l' -> same_result (Ok (s, PlainList l)) (Ok (s', PlainList l'))
| sr_list s s' l l' : same_fields s s' -> Forall2 same_fields l l' -> same_result (Ok (s, AStateList l)) (Ok (s', AStateList l')).
