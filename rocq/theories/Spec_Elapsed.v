(** Elapsed time: timedelta objects as times (C145). *)
From Verif Require Import Base Model_Grid Model_Time Model_Spectral Model_State Model_Run.
From Coq Require Import List.

(** the same instant on a calendar where the count starts at [d0] (microseconds) *)
Definition date_of {K} (d0 : Z) (t : pyval K) : pyval K := match t with VDelta us => VDate (d0 + us) | t => t end.
Definition dated {K} (d0 : Z) (s : state K) : state K := mkState (s_grid s) (date_of d0 (s_time s)) (s_pvs s).
Definition elapsed {K} (s : state K) : Prop := exists us, s_time s = VDelta us.
(** the same outcome, states on the calendar *)
Definition dated_result {K} (d0 : Z) (r : res (state K * runlist K)) : res (state K * runlist K) :=
  match r with
  | Ok (s, PlainList l) => Ok (dated d0 s, PlainList (map (dated d0) l))
  | Ok (s, AStateList l) => Ok (dated d0 s, AStateList (map (dated d0) l))
  | Err e => Err e
  end.
(** the same model with a forcing that reads the calendar *)
Definition on_calendar {K} (d0 : Z) (A B : bmodel K) : Prop :=
  m_order A = m_order B /\ m_coeff A = m_coeff B /\ m_bg A = m_bg B
  /\ match m_rhs A, m_rhs B with
     | None, None => True
     | Some f, Some h => forall s, elapsed s -> h (dated d0 s) = f s
     | _, _ => False
     end.
