(** Rodrigues polynomials: differential equation, parity, orthogonality. *)
From Coq Require Export String.
From Verif Require Import Base Proofs_Base Proofs_Poly Spec_Harmonics.
From Coquelicot Require Import Coquelicot.
From Coq Require Import List Lia Lra.
Import ListNotations.
Open Scope R_scope.

Definition ypow (n : nat) (t : R) : R := (t ^ 2 - 1) ^ n.
Lemma poly_sq : polyf 2 (fun t => t ^ 2 - 1).
Proof. exists [-1; 0; 1]. split; [cbn; lia|]. intros x. cbn. ring. Qed.
Lemma poly_w : polyf 2 (fun t => 1 - t ^ 2).
Proof. exists [1; 0; -1]. split; [cbn; lia|]. intros x. cbn. ring. Qed.
Lemma poly_y n : polyf (2 * n) (ypow n).
Proof. rewrite Nat.mul_comm. apply (poly_pow 2 (fun t => t ^ 2 - 1) n), poly_sq. Qed.
Lemma y_step n j t : is_derive (Derive_n (ypow n) j) t (Derive_n (ypow n) (S j) t).
Proof. apply (poly_step (2 * n)), poly_y. Qed.
Lemma poly_rodrigues n m : polyf (n - m) (rodrigues n m).
Proof. unfold rodrigues. replace (n - m)%nat with (2 * n - (n + m))%nat by lia. apply poly_Derive_n, poly_y. Qed.
Lemma rodrigues_step n m z : is_derive (rodrigues n m) z (rodrigues n (S m) z).
Proof. unfold rodrigues. rewrite Nat.add_succ_r. apply y_step. Qed.
Lemma rodrigues_Derive n m z : Derive (rodrigues n m) z = rodrigues n (S m) z.
Proof. apply is_derive_unique, rodrigues_step. Qed.
Lemma rodrigues_high n m z : (n < m)%nat -> rodrigues n m z = 0.
Proof. intros H. unfold rodrigues. apply (poly_Derive_n_high (2 * n)); [apply poly_y|lia]. Qed.

(** derivatives of an identity between functions *)
Lemma zero_derive (f : R -> R) t l : (forall x, f x = 0) -> is_derive f t l -> l = 0.
Proof. intros Z D. rewrite <- (is_derive_unique f t l D). rewrite (Derive_ext f (fun _ => 0)) by exact Z. apply Derive_const. Qed.
Lemma y_first n t : (t ^ 2 - 1) * Derive_n (ypow n) 1 t - 2 * INR n * t * ypow n t = 0.
Proof.
  assert (D : is_derive (ypow n) t (INR n * (2 * t) * (t ^ 2 - 1) ^ (Init.Nat.pred n))).
  { unfold ypow. auto_derive; [exact I|]. replace (t * (t * 1) + - (1)) with (t ^ 2 - 1) by ring. generalize ((t ^ 2 - 1) ^ Init.Nat.pred n). intros q. ring. }
  change (Derive_n (ypow n) 1 t) with (Derive (ypow n) t). rewrite (is_derive_unique _ _ _ D). unfold ypow. destruct n; [cbn; ring|]. cbn [Init.Nat.pred pow]. ring.
Qed.
Lemma y_ode n j : forall t, (t ^ 2 - 1) * Derive_n (ypow n) (S (S j)) t + 2 * (INR j + 1 - INR n) * t * Derive_n (ypow n) (S j) t
  + (INR j + 1) * (INR j - 2 * INR n) * Derive_n (ypow n) j t = 0.
Proof.
  induction j as [|j IH]; intros t.
  - apply (zero_derive (fun t => (t ^ 2 - 1) * Derive_n (ypow n) 1 t - 2 * INR n * t * Derive_n (ypow n) 0 t) t); [intros x; apply y_first|].
    pose proof (y_step n 1 t) as D1. pose proof (y_step n 0 t) as D0.
    evar_last. { apply @is_derive_minus; apply @is_derive_mult; [| exact D1 | intros; apply Rmult_comm | | exact D0 | intros; apply Rmult_comm]; auto_derive; try exact I; reflexivity. }
    unfold minus, plus, opp, mult; cbn -[Derive_n INR]. change (INR 0) with 0. ring.
  - apply (zero_derive (fun t => (t ^ 2 - 1) * Derive_n (ypow n) (S (S j)) t + 2 * (INR j + 1 - INR n) * t * Derive_n (ypow n) (S j) t
      + (INR j + 1) * (INR j - 2 * INR n) * Derive_n (ypow n) j t) t); [exact IH|].
    pose proof (y_step n (S (S j)) t) as D2. pose proof (y_step n (S j) t) as D1. pose proof (y_step n j t) as D0.
    evar_last. { apply @is_derive_plus; [apply @is_derive_plus|]; apply @is_derive_mult; [| exact D2 | intros; apply Rmult_comm | | exact D1 | intros; apply Rmult_comm | | exact D0 | intros; apply Rmult_comm]; auto_derive; try exact I; reflexivity. }
    unfold minus, plus, opp, mult; cbn -[Derive_n INR]. rewrite S_INR. ring.
Qed.
(** (1-z^2) p'' - 2(m+1) z p' + (n(n+1) - m(m+1)) p = 0 *)
Lemma rodrigues_ode n m z : (1 - z ^ 2) * rodrigues n (S (S m)) z - 2 * (INR m + 1) * z * rodrigues n (S m) z
  + (INR n * (INR n + 1) - INR m * (INR m + 1)) * rodrigues n m z = 0.
Proof.
  unfold rodrigues. pose proof (y_ode n (n + m) z) as H. rewrite !Nat.add_succ_r. unfold ypow in H. rewrite plus_INR in H. lra.
Qed.
Lemma rodrigues_parity n m z : rodrigues n m (- z) = (-1) ^ (n + m) * rodrigues n m z.
Proof.
  unfold rodrigues. set (f := fun t => (t ^ 2 - 1) ^ n).
  assert (E : Derive_n f (n + m) z = (-1) ^ (n + m) * Derive_n f (n + m) (- z)).
  { transitivity (Derive_n (fun t => f (- t)) (n + m) z); [apply Derive_n_ext; intros t; unfold f; f_equal; ring|].
    apply Derive_n_comp_opp. apply filter_forall. intros y k _. apply (poly_smooth (2 * n)), poly_y. }
  rewrite E, <- Rmult_assoc, <- Rpow_mult_distr. replace (-1 * -1) with 1 by ring. rewrite pow1. ring.
Qed.

(** leading coefficient *)
Lemma leibniz d f : polyf d f -> forall j t, Derive_n (fun t => (t ^ 2 - 1) * f t) (S (S j)) t
  = (t ^ 2 - 1) * Derive_n f (S (S j)) t + 2 * (INR j + 2) * t * Derive_n f (S j) t + (INR j + 2) * (INR j + 1) * Derive_n f j t.
Proof.
  intros P. assert (S1 : forall t, Derive_n (fun t => (t ^ 2 - 1) * f t) 1 t = 2 * t * f t + (t ^ 2 - 1) * Derive_n f 1 t).
  { intros t. change (Derive_n (fun t => (t ^ 2 - 1) * f t) 1 t) with (Derive (fun t => (t ^ 2 - 1) * f t) t). apply is_derive_unique.
    pose proof (poly_step d f 0 t P) as D. change (Derive_n f 0) with f in D.
    evar_last. { apply @is_derive_mult; [|exact D|intros; apply Rmult_comm]; auto_derive; try exact I; reflexivity. }
    unfold plus, mult; cbn -[Derive_n INR]. change (Derive_n f 0 t) with (f t). ring. }
  induction j as [|j IH]; intros t.
  - change (Derive_n (fun t => (t ^ 2 - 1) * f t) 2 t) with (Derive (Derive_n (fun t => (t ^ 2 - 1) * f t) 1) t). rewrite (Derive_ext _ _ t S1). apply is_derive_unique.
    pose proof (poly_step d f 0 t P) as D0. pose proof (poly_step d f 1 t P) as D1. change (Derive_n f 0) with f in D0.
    evar_last. { apply @is_derive_plus; apply @is_derive_mult; [| exact D0 | intros; apply Rmult_comm | | exact D1 | intros; apply Rmult_comm]; auto_derive; try exact I; reflexivity. }
    unfold plus, mult; cbn -[Derive_n INR]. change (Derive_n f 0 t) with (f t). change (INR 0) with 0. ring.
  - change (Derive_n (fun t => (t ^ 2 - 1) * f t) (S (S (S j))) t) with (Derive (Derive_n (fun t => (t ^ 2 - 1) * f t) (S (S j))) t). rewrite (Derive_ext _ _ t IH). apply is_derive_unique.
    pose proof (poly_step d f (S (S j)) t P) as D2. pose proof (poly_step d f (S j) t P) as D1. pose proof (poly_step d f j t P) as D0.
    evar_last. { apply @is_derive_plus; [apply @is_derive_plus|]; apply @is_derive_mult; [| exact D2 | intros; apply Rmult_comm | | exact D1 | intros; apply Rmult_comm | | exact D0 | intros; apply Rmult_comm]; auto_derive; try exact I; reflexivity. }
    unfold plus, mult; cbn -[Derive_n INR]. rewrite S_INR. ring.
Qed.
Lemma y_top n t : Derive_n (ypow n) (2 * n) t <> 0.
Proof.
  revert t. induction n as [|n IH]; intros t; [cbn; unfold ypow; cbn; lra|].
  replace (2 * S n)%nat with (S (S (2 * n))) by lia. rewrite (Derive_n_ext (ypow (S n)) (fun t => (t ^ 2 - 1) * ypow n t)) by (intros x; unfold ypow; reflexivity).
  rewrite (leibniz _ _ (poly_y n)). rewrite (poly_Derive_n_high (2 * n) (ypow n) (S (S (2 * n)))), (poly_Derive_n_high (2 * n) (ypow n) (S (2 * n))) by (apply poly_y || lia).
  specialize (IH t). pose proof (pos_INR (2 * n)).
  assert (0 < (INR (2 * n) + 2) * (INR (2 * n) + 1)) by (apply Rmult_lt_0_compat; lra). intros E. apply IH. nra.
Qed.
Lemma rodrigues_nonzero n m : (m <= n)%nat -> exists z, -1 < z < 1 /\ rodrigues n m z <> 0.
Proof.
  intros H. set (pts := map (fun i => INR i / INR (n + 2)) (seq 0 (n + 1))).
  destruct (Exists_dec (fun z => rodrigues n m z <> 0) pts) as [E|E].
  { intros x. destruct (Req_EM_T (rodrigues n m x) 0); [right|left]; tauto. }
  - apply Exists_exists in E. destruct E as [z [I Hz]]. exists z. split; [|exact Hz]. apply in_map_iff in I. destruct I as [i [<- I]]. apply in_seq in I.
    assert (0 < INR (n + 2)) by (apply lt_0_INR; lia). pose proof (pos_INR i). assert (INR i < INR (n + 2)) by (apply lt_INR; lia).
    assert (0 <= INR i / INR (n + 2)) by (apply Rle_mult_inv_pos; assumption). split; [lra|]. apply (Rmult_lt_reg_r (INR (n + 2))); [assumption|]. field_simplify; lra.
  - exfalso. assert (Z : forall z, rodrigues n m z = 0).
    { apply (poly_zero (n - m) _ pts); [apply poly_rodrigues| | |].
      - unfold pts. apply FinFun.Injective_map_NoDup; [|apply seq_NoDup]. intros a b Hab. apply INR_eq.
        assert (0 < INR (n + 2)) by (apply lt_0_INR; lia). apply (Rmult_eq_reg_r (/ INR (n + 2))); [exact Hab|]. apply Rinv_neq_0_compat. lra.
      - unfold pts. rewrite map_length, seq_length. lia.
      - intros y Hy. destruct (Req_EM_T (rodrigues n m y) 0) as [e|e]; [exact e|]. exfalso. apply E, Exists_exists. now exists y. }
    apply (y_top n 0). replace (2 * n)%nat with (n - m + (n + m))%nat by lia. rewrite <- Derive_n_comp.
    rewrite (Derive_n_ext _ (fun _ => 0)) by exact Z. destruct (n - m)%nat as [|k]; [reflexivity|]. apply Derive_n_const.
Qed.
