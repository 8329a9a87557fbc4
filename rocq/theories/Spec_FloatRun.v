(** Integrations in double precision and in exact arithmetic: when values, states,
    models and results mean the same. *)
From Coq Require Import Reals List.
From Verif Require Import Model_Run Spec_Float.

Definition same_time (t : pyval num64) (t' : pyval numR) : Prop :=
  match t, t' with
  | VNum x, VNum r => denotes x r
  | VDate a, VDate b => a = b
  | VDelta a, VDelta b => a = b
  | _, _ => False
  end.
Definition same_state (s : state num64) (s' : state numR) : Prop :=
  s_grid s = s_grid s' /\ same_time (s_time s) (s_time s') /\ s_pvs s = s_pvs s'.
Definition same_model (M : bmodel num64) (M' : bmodel numR) : Prop :=
  m_order M = m_order M' /\ m_coeff M = m_coeff M' /\ m_bg M = m_bg M'
  /\ match m_rhs M, m_rhs M' with
     | None, None => True
     | Some f, Some f' => forall s s', same_state s s' -> f s = f' s'
     | _, _ => False
     end.
Definition same_outcome (r : res (state num64 * runlist num64)) (r' : res (state numR * runlist numR)) : Prop :=
  match r, r' with
  | Ok (s, PlainList l), Ok (s', PlainList l') => same_state s s' /\ Forall2 same_state l l'
  | Ok (s, AStateList l), Ok (s', AStateList l') => same_state s s' /\ Forall2 same_state l l'
  | Err e, Err e' => e = e'
  | _, _ => False
  end.
