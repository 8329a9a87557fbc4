(** The filtered leapfrog scheme for the equation dq/dt = i w q (C132): a linear
    recursion for pairs (filtered old value, new value), its eigenvalues and its
    distance from the exact solution. *)
From Coq Require Import Reals Lra Lia.
From Coquelicot Require Import Coquelicot.
Open Scope R_scope.

(** a complex number from its parts *)
Definition cx (p q : R) : C := (p, q).
(** x = w dt *)
Definition oscillation (x : R) (a b : nat -> C) : Prop :=
  b 0%nat = ((cx (1) (x)) * a 0%nat)%C
  /\ forall n, b (S n) = (a n + (cx (0) (2 * x)) * b n)%C
            /\ a (S n) = (RtoC (1 - 2 * (1 / 5)) * b n + RtoC (1 / 5) * (a n + b (S n)))%C.

Ltac csolve := unfold cx, Cplus, Cminus, Cmult, Copp, RtoC; cbn [cx fst snd]; apply f_equal2; (ring || field || idtac).

Lemma Cmod_real x y : 0 <= y -> x ^ 2 <= y ^ 2 -> Rabs x <= y.
Proof. intros Y H. rewrite <- (Rabs_right y) by lra. apply Rsqr_le_abs_0. unfold Rsqr. lra. Qed.
Lemma Cmod_sqr (z : C) : Cmod z ^ 2 = fst z ^ 2 + snd z ^ 2.
Proof. unfold Cmod. apply pow2_sqrt. nra. Qed.
Lemma Cmod_lt1 (z : C) : fst z ^ 2 + snd z ^ 2 < 1 -> Cmod z < 1.
Proof. intros H. rewrite <- Cmod_sqr in H. pose proof (Cmod_ge_0 z). nra. Qed.
Lemma Cmod_gt1 (z : C) : 1 < fst z ^ 2 + snd z ^ 2 -> 1 < Cmod z.
Proof. intros H. rewrite <- Cmod_sqr in H. pose proof (Cmod_ge_0 z). nra. Qed.
Lemma Cmod_eq1 (z : C) : fst z ^ 2 + snd z ^ 2 = 1 -> Cmod z = 1.
Proof. intros H. rewrite <- Cmod_sqr in H. pose proof (Cmod_ge_0 z). nra. Qed.

Section Second.
Variables (x : R) (a b : nat -> C).
Hypothesis O : oscillation x a b.
Lemma second n : a (S (S n)) = ((cx (2 / 5) (2 * x)) * a (S n) + (cx (3 / 5) (- (2 / 5 * x))) * a n)%C.
Proof.
  destruct O as [_ Q]. destruct (Q n) as [E1 E2]. destruct (Q (S n)) as [E3 E4]. rewrite E4, E3, E2, E1.
  destruct (a n), (b n). csolve.
Qed.
Lemma first : a 1%nat = ((cx (1 - 2 / 5 * x ^ 2) (x)) * a 0%nat)%C.
Proof. destruct O as [I Q]. destruct (Q 0%nat) as [E1 E2]. rewrite E2, E1, I. destruct (a 0%nat). csolve. Qed.

Variables l m : C.
Hypothesis Hs : (l + m)%C = (cx (2 / 5) (2 * x)).
Hypothesis Hp : (l * m)%C = (cx (- (3 / 5)) (2 / 5 * x)).
Lemma mode n : (a (S (S n)) - m * a (S n) = l * (a (S n) - m * a n))%C.
Proof.
  rewrite second. rewrite <- Hs. replace (cx (3 / 5) (- (2 / 5 * x))) with (- (l * m))%C by (rewrite Hp; csolve). ring.
Qed.
Lemma mode_size n : Cmod (a (S n) - m * a n)%C = Cmod l ^ n * Cmod (a 1%nat - m * a 0%nat)%C.
Proof. induction n as [|n IH]; [cbn; ring|]. rewrite mode, Cmod_mult, IH. cbn. ring. Qed.
Lemma size_step n : Cmod (a (S n)) <= Cmod m * Cmod (a n) + Cmod l ^ n * Cmod (a 1%nat - m * a 0%nat)%C.
Proof.
  rewrite <- mode_size, <- Cmod_mult. replace (a (S n)) with (m * a n + (a (S n) - m * a n))%C at 1 by ring. apply Cmod_triangle.
Qed.
End Second.

(** both eigenvalues inside the unit circle: decay *)
Lemma decays x a b l m : oscillation x a b -> (l + m)%C = (cx (2 / 5) (2 * x)) -> (l * m)%C = (cx (- (3 / 5)) (2 / 5 * x)) ->
  Cmod l < 1 -> Cmod m < 1 -> exists B q, 0 <= B /\ 0 <= q < 1 /\ forall n, Cmod (a n) <= B * q ^ n.
Proof.
  intros O Hs Hp L M. pose proof (Cmod_ge_0 l). pose proof (Cmod_ge_0 m). set (D := Cmod (a 1%nat - m * a 0%nat)%C).
  pose proof (Cmod_ge_0 (a 1%nat - m * a 0%nat)%C) as HD. fold D in HD.
  set (r := Rmax (Cmod l) (Cmod m)). assert (R1 : r < 1) by (unfold r; now apply Rmax_lub_lt).
  assert (Rl : Cmod l <= r) by apply Rmax_l. assert (Rm : Cmod m <= r) by apply Rmax_r.
  set (q := (1 + r) / 2). assert (Q : r < q < 1) by (unfold q; lra).
  pose proof (Cmod_ge_0 (a 0%nat)). set (B := Cmod (a 0%nat) + D / (q - r)).
  assert (DB : D / (q - r) <= B) by (unfold B; lra). assert (D0 : 0 <= D / (q - r)) by (apply Rdiv_le_0_compat; lra).
  exists B, q. split; [unfold B; lra|]. split; [lra|]. induction n as [|n IH]; [cbn; unfold B; lra|].
  eapply Rle_trans; [apply (size_step x a b O l m Hs Hp)|]. fold D.
  assert (PW : Cmod l ^ n <= q ^ n) by (apply pow_incr; lra). assert (P0 : 0 <= q ^ n) by (apply pow_le; lra).
  assert (Cmod m * Cmod (a n) <= r * (B * q ^ n)). { pose proof (Cmod_ge_0 (a n)). apply Rmult_le_compat; lra. }
  assert (Cmod l ^ n * D <= q ^ n * D) by (apply Rmult_le_compat_r; assumption).
  assert (E : D <= (q - r) * B). { apply (Rmult_le_compat_l (q - r)) in DB; [|lra]. replace ((q - r) * (D / (q - r))) with D in DB by (field; lra). exact DB. }
  cbn. replace (B * (q * q ^ n)) with (r * (B * q ^ n) + q ^ n * ((q - r) * B)) by ring.
  assert (q ^ n * D <= q ^ n * ((q - r) * B)) by (apply Rmult_le_compat_l; assumption). lra.
Qed.
(** one of them on the unit circle: boundedness *)
Lemma stays_bounded x a b l m : oscillation x a b -> (l + m)%C = (cx (2 / 5) (2 * x)) -> (l * m)%C = (cx (- (3 / 5)) (2 / 5 * x)) ->
  Cmod l <= 1 -> Cmod m < 1 -> exists B, forall n, Cmod (a n) <= B.
Proof.
  intros O Hs Hp L M. pose proof (Cmod_ge_0 l). pose proof (Cmod_ge_0 m). set (D := Cmod (a 1%nat - m * a 0%nat)%C).
  pose proof (Cmod_ge_0 (a 1%nat - m * a 0%nat)%C) as HD. fold D in HD. pose proof (Cmod_ge_0 (a 0%nat)).
  set (B := Cmod (a 0%nat) + D / (1 - Cmod m)). assert (D0 : 0 <= D / (1 - Cmod m)) by (apply Rdiv_le_0_compat; lra).
  exists B. induction n as [|n IH]; [unfold B; lra|].
  eapply Rle_trans; [apply (size_step x a b O l m Hs Hp)|]. fold D.
  assert (PW : Cmod l ^ n <= 1). { rewrite <- (pow1 n). apply pow_incr. lra. }
  assert (Cmod l ^ n * D <= 1 * D) by (apply Rmult_le_compat_r; assumption).
  assert (Cmod m * Cmod (a n) <= Cmod m * B) by (apply Rmult_le_compat_l; assumption).
  assert (D = (1 - Cmod m) * (D / (1 - Cmod m))) by (field; lra).
  assert ((1 - Cmod m) * (D / (1 - Cmod m)) <= (1 - Cmod m) * B) by (apply Rmult_le_compat_l; unfold B; lra). lra.
Qed.
(** one outside: growth *)
Lemma grows x a b l m : oscillation x a b -> (l + m)%C = (cx (2 / 5) (2 * x)) -> (l * m)%C = (cx (- (3 / 5)) (2 / 5 * x)) ->
  1 < Cmod l -> Cmod m < 1 -> (a 1%nat - m * a 0%nat)%C <> RtoC 0 ->
  forall B, exists n0, forall n, (n0 <= n)%nat -> B <= Cmod (a n).
Proof.
  intros O Hs Hp L M HD B. pose proof (Cmod_ge_0 m).
  set (D := Cmod (a 1%nat - m * a 0%nat)%C). assert (D0 : 0 < D) by (unfold D; now apply Cmod_gt_0).
  set (F := Cmod (a 1%nat - l * a 0%nat)%C). pose proof (Cmod_ge_0 (a 1%nat - l * a 0%nat)%C) as F0. fold F in F0.
  set (c := Cmod (l - m)%C). pose proof (Cmod_ge_0 (l - m)%C) as c0. fold c in c0.
  destruct (Pow_x_infinity (Cmod l) ltac:(rewrite Rabs_right; lra) ((c * Rabs B + F + 1) / D)) as [n0 N0].
  exists n0. intros n Hn. specialize (N0 n Hn). rewrite Rabs_right in N0 by (apply Rle_ge, pow_le; lra).
  pose proof (mode_size x a b O l m Hs Hp n) as E1. fold D in E1.
  pose proof (mode_size x a b O m l) as E2. rewrite Cplus_comm, Cmult_comm in E2. specialize (E2 Hs Hp n). fold F in E2.
  assert (PW : Cmod m ^ n <= 1). { rewrite <- (pow1 n). apply pow_incr. lra. }
  assert (PF : Cmod m ^ n * F <= 1 * F) by (apply Rmult_le_compat_r; assumption).
  assert (T : Cmod l ^ n * D <= c * Cmod (a n) + F).
  { rewrite <- E1. unfold c. rewrite <- Cmod_mult. replace (a (S n) - m * a n)%C with ((l - m) * a n + (a (S n) - l * a n))%C by ring.
    eapply Rle_trans; [apply Cmod_triangle|]. rewrite E2. lra. }
  apply Rge_le in N0. apply (Rmult_le_compat_r D) in N0; [|lra]. replace ((c * Rabs B + F + 1) / D * D) with (c * Rabs B + F + 1) in N0 by (field; lra).
  pose proof (RRle_abs B). pose proof (Cmod_ge_0 (a n)). destruct (Rle_lt_dec B (Cmod (a n))) as [|X]; [assumption|].
  assert (c * Cmod (a n) <= c * Rabs B) by (apply Rmult_le_compat_l; lra). lra.
Qed.

(** the eigenvalues *)
Lemma roots_slow x : x ^ 2 <= 16 / 25 -> exists l m, (l + m)%C = (cx (2 / 5) (2 * x)) /\ (l * m)%C = (cx (- (3 / 5)) (2 / 5 * x))
  /\ Cmod m < 1 /\ Cmod l <= 1 /\ (x <> 0 -> Cmod l < 1).
Proof.
  intros H. set (s := sqrt (16 / 25 - x ^ 2)). assert (S0 : 0 <= s) by apply sqrt_pos.
  assert (S2 : s * s = 16 / 25 - x ^ 2) by (apply sqrt_sqrt; lra).
  exists (cx (1 / 5 + s) (x)), (cx (1 / 5 - s) (x)). split; [csolve|]. split.
  { unfold cx, Cmult. cbn [cx fst snd]. apply f_equal2; [|field]. replace ((1 / 5 + s) * (1 / 5 - s) - x * x) with (1 / 25 - s * s - x ^ 2) by field. rewrite S2. field. }
  assert (X2 : 0 <= x ^ 2) by apply pow2_ge_0.
  assert (S4 : s <= 4 / 5) by nra. split; [|split].
  - apply Cmod_lt1. cbn [cx fst snd]. replace ((1 / 5 - s) ^ 2) with (1 / 25 - 2 / 5 * s + s * s) by field. rewrite S2. lra.
  - assert (Cmod (cx (1 / 5 + s) (x)) ^ 2 <= 1). { rewrite Cmod_sqr. cbn [cx fst snd]. replace ((1 / 5 + s) ^ 2) with (1 / 25 + 2 / 5 * s + s * s) by field. rewrite S2. lra. }
    pose proof (Cmod_ge_0 (cx (1 / 5 + s) (x))). nra.
  - intros X. assert (0 < x ^ 2) by (apply pow2_gt_0; assumption). assert (s < 4 / 5) by nra.
    apply Cmod_lt1. cbn [cx fst snd]. replace ((1 / 5 + s) ^ 2) with (1 / 25 + 2 / 5 * s + s * s) by field. rewrite S2. lra.
Qed.
Lemma roots_fast x : 16 / 25 < x ^ 2 -> exists t l m, t <> 0 /\ m = (cx (1 / 5) (x - t)) /\ (l + m)%C = (cx (2 / 5) (2 * x)) /\ (l * m)%C = (cx (- (3 / 5)) (2 / 5 * x))
  /\ Cmod m < 1 /\ (x ^ 2 < 2 / 3 -> Cmod l < 1) /\ (x ^ 2 = 2 / 3 -> Cmod l = 1) /\ (2 / 3 < x ^ 2 -> 1 < Cmod l).
Proof.
  intros H. set (s := sqrt (x ^ 2 - 16 / 25)). assert (S0 : 0 < s) by (apply sqrt_lt_R0; lra).
  assert (S2 : s * s = x ^ 2 - 16 / 25) by (apply sqrt_sqrt; lra).
  assert (E : exists t, t * t = x ^ 2 - 16 / 25 /\ 0 < x * t).
  { destruct (Rlt_dec 0 x); [exists s; split; [exact S2|nra]|]. exists (- s). split; [rewrite <- S2; ring|]. assert (x <> 0) by (intros ->; lra). nra. }
  destruct E as [t [T2 XT]]. exists t, (cx (1 / 5) (x + t)), (cx (1 / 5) (x - t)).
  split; [intros ->; lra|]. split; [reflexivity|]. split; [csolve|]. split.
  { unfold cx, Cmult. cbn [cx fst snd]. apply f_equal2; [|field]. replace ((x + t) * (x - t)) with (x ^ 2 - t * t) by ring. rewrite T2. field. }
  set (p := (x + t) ^ 2). set (q := (x - t) ^ 2).
  assert (PQ : p * q = (16 / 25) ^ 2). { unfold p, q. replace ((x + t) ^ 2 * (x - t) ^ 2) with ((x ^ 2 - t * t) ^ 2) by ring. rewrite T2. field. }
  assert (SM : p + q = 4 * x ^ 2 - 32 / 25) by (unfold p, q; nra).
  assert (Q0 : 0 <= q) by apply pow2_ge_0. assert (DF : q < p) by (unfold p, q; nra).
  assert (P6 : 16 / 25 < p) by nra. assert (Q6 : q < 16 / 25) by nra.
  assert (K : (p - 24 / 25) * (p - 32 / 75) = 4 * p * (x ^ 2 - 2 / 3)).
  { replace (4 * p * (x ^ 2 - 2 / 3)) with (p * (4 * x ^ 2 - 32 / 25) + p * (32 / 25 - 8 / 3)) by field. rewrite <- SM.
    replace (p * (p + q)) with (p * p + p * q) by ring. rewrite PQ. field. }
  split; [apply Cmod_lt1; cbn [cx fst snd]; fold q; lra|]. split; [|split]; intros X.
  - apply Cmod_lt1. cbn [cx fst snd]. fold p. nra.
  - apply Cmod_eq1. cbn [cx fst snd]. fold p. rewrite X in K. replace (2 / 3 - 2 / 3) with 0 in K by ring. rewrite Rmult_0_r in K.
    apply Rmult_integral in K. destruct K; lra.
  - apply Cmod_gt1. cbn [cx fst snd]. fold p. nra.
Qed.

Section Regimes.
Variables (x : R) (a b : nat -> C).
Hypothesis O : oscillation x a b.
Lemma wave_decays : x <> 0 -> x ^ 2 < 2 / 3 -> exists B q, 0 <= B /\ 0 <= q < 1 /\ forall n, Cmod (a n) <= B * q ^ n.
Proof.
  intros X0 X. destruct (Rle_lt_dec (x ^ 2) (16 / 25)) as [H|H].
  - destruct (roots_slow x H) as (l & m & S & P & M & _ & L). exact (decays x a b l m O S P (L X0) M).
  - destruct (roots_fast x H) as (t & l & m & _ & _ & S & P & M & L & _). exact (decays x a b l m O S P (L X) M).
Qed.
Lemma wave_limited : x ^ 2 <= 2 / 3 -> exists B, forall n, Cmod (a n) <= B.
Proof.
  intros X. destruct (Rle_lt_dec (x ^ 2) (16 / 25)) as [H|H].
  - destruct (roots_slow x H) as (l & m & S & P & M & L & _). exact (stays_bounded x a b l m O S P L M).
  - destruct (roots_fast x H) as (t & l & m & _ & _ & S & P & M & L1 & L2 & _). apply (stays_bounded x a b l m O S P); [|exact M].
    destruct X as [X|X]; [apply Rlt_le, (L1 X)|right; exact (L2 X)].
Qed.
Lemma wave_grows : 2 / 3 < x ^ 2 -> a 0%nat <> RtoC 0 -> forall B, exists n0, forall n, (n0 <= n)%nat -> B <= Cmod (a n).
Proof.
  intros X A. destruct (roots_fast x ltac:(lra)) as (t & l & m & T & EM & S & P & M & _ & _ & L).
  apply (grows x a b l m O S P (L X) M). rewrite (first x a b O), EM.
  assert (E : forall z : C, (cx (1 - 2 / 5 * x ^ 2) x * z - cx (1 / 5) (x - t) * z = cx (4 / 5 - 2 / 5 * x ^ 2) t * z)%C).
  { intros [p q]. unfold cx, Cminus, Cplus, Cmult, Copp. cbn [fst snd]. apply f_equal2; field. }
  rewrite E. clear E.
  apply Cmult_neq_0; [|exact A]. intros E. injection E as _ E. now apply T.
Qed.
Lemma wave_still : x = 0 -> forall n, a n = a 0%nat.
Proof.
  intros X. assert (I : forall n, a n = a 0%nat /\ b n = a 0%nat).
  { destruct O as [I Q]. rewrite X in *. induction n as [|n [IA IB]]; [split; [reflexivity|rewrite I; destruct (a 0%nat); csolve]|].
    destruct (Q n) as [E1 E2]. assert (E : b (S n) = a 0%nat) by (rewrite E1, IA, IB; destruct (a 0%nat); csolve).
    split; [|exact E]. rewrite E2, IA, IB, E. destruct (a 0%nat); csolve. }
  intros n. apply I.
Qed.
End Regimes.

(** elementary bounds for sine and cosine *)
Lemma abs_sin_le u : Rabs (sin u) <= Rabs u.
Proof.
  assert (P : forall v, 0 < v -> Rabs (sin v) <= v).
  { intros v V. apply Rabs_le. split; [|apply Rlt_le; now apply sin_lt_x].
    destruct (Rle_lt_dec v PI) as [L|L]; [pose proof (sin_ge_0 v ltac:(lra) L); lra|].
    pose proof (SIN_bound v). pose proof PI2_1. unfold PI2 in *. lra. }
  destruct (Rtotal_order u 0) as [L|[-> |L]].
  - rewrite (Rabs_left u L). replace (sin u) with (- sin (- u)) by (rewrite sin_neg; ring). rewrite Rabs_Ropp. apply P. lra.
  - rewrite sin_0, Rabs_R0. lra.
  - rewrite (Rabs_right u) by lra. now apply P.
Qed.
Lemma cos_drop u : 0 <= 1 - cos u <= u ^ 2 / 2.
Proof.
  replace (cos u) with (1 - 2 * sin (u / 2) ^ 2).
  - pose proof (pow2_ge_0 (sin (u / 2))). pose proof (abs_sin_le (u / 2)) as A. apply Rsqr_le_abs_1 in A. unfold Rsqr in A. lra.
  - replace u with (2 * (u / 2)) at 2 by field. rewrite cos_2a_sin. ring.
Qed.
Lemma sin_drop u : Rabs (u - sin u) <= Rabs u ^ 3 / 6.
Proof.
  assert (P : forall v, 0 <= v -> 0 <= v - sin v <= v ^ 3 / 6).
  { intros v V. split; [destruct V as [V|<-]; [pose proof (sin_lt_x v V); lra|rewrite sin_0; lra]|].
    assert (I : (fun t => t ^ 3 / 6 - t + sin t) 0 <= (fun t => t ^ 3 / 6 - t + sin t) v).
    { destruct V as [V|<-]; [|lra].
      destruct (MVT_cor2 (fun t => t ^ 3 / 6 - t + sin t) (fun t => t ^ 2 / 2 - 1 + cos t) 0 v V) as [c [Ec _]].
      - intros c _. apply is_derive_Reals. auto_derive; [trivial|]. field.
      - pose proof (cos_drop c). assert (0 <= (c ^ 2 / 2 - 1 + cos c) * (v - 0)) by (apply Rmult_le_pos; lra). lra. }
    cbv beta in I. rewrite sin_0 in I. lra. }
  destruct (Rle_lt_dec 0 u) as [L|L].
  - rewrite (Rabs_right u) by lra. specialize (P u L). rewrite Rabs_right; lra.
  - rewrite (Rabs_left u L). specialize (P (- u) ltac:(lra)). rewrite sin_neg in P. rewrite Rabs_left1; lra.
Qed.

(** the exact solution after n steps, and the error of the scheme *)
Definition turned (x : R) (n : nat) : C := cx (cos (INR n * x)) (sin (INR n * x)).
Lemma turned_mod x n : Cmod (turned x n) = 1.
Proof. apply Cmod_eq1. cbn [turned cx fst snd]. pose proof (sin2_cos2 (INR n * x)) as H. unfold Rsqr in H. lra. Qed.
Lemma turned_next x n : turned x (S n) = (cx (cos x) (sin x) * turned x n)%C.
Proof.
  unfold turned. rewrite S_INR, Rmult_plus_distr_r, Rmult_1_l, cos_plus, sin_plus. unfold cx, Cmult. cbn [fst snd]. apply f_equal2; ring.
Qed.
Lemma turned_back x n : turned x n = (cx (cos x) (- sin x) * turned x (S n))%C.
Proof.
  rewrite turned_next. unfold turned, cx, Cmult. cbn [fst snd]. pose proof (sin2_cos2 x) as H. unfold Rsqr in H.
  apply f_equal2.
  - replace (cos x * (cos x * cos (INR n * x) - sin x * sin (INR n * x)) - - sin x * (cos x * sin (INR n * x) + sin x * cos (INR n * x)))
      with ((sin x * sin x + cos x * cos x) * cos (INR n * x)) by ring. rewrite H. ring.
  - replace (cos x * (cos x * sin (INR n * x) + sin x * cos (INR n * x)) + - sin x * (cos x * cos (INR n * x) - sin x * sin (INR n * x)))
      with ((sin x * sin x + cos x * cos x) * sin (INR n * x)) by ring. rewrite H. ring.
Qed.
Lemma Cmod_cx0 p : Cmod (cx 0 p) = Rabs p.
Proof. unfold Cmod, cx. cbn [fst snd]. replace (0 ^ 2 + p ^ 2) with (p²) by (unfold Rsqr; ring). apply sqrt_Rsqr_abs. Qed.

Section Accuracy.
Variables (x : R) (a b : nat -> C).
Hypothesis O : oscillation x a b.
Notation z := (a 0%nat).
Let ea n : C := (a n - turned x n * z)%C.
Let eb n : C := (b n - turned x (S n) * z)%C.
Definition step_error : R := Rabs x ^ 2 / 5 + Rabs x ^ 3 / 3.
Definition first_error : R := Rabs x ^ 2 / 2 + Rabs x ^ 3 / 6.
Lemma ea_0 : ea 0 = RtoC 0.
Proof. unfold ea, turned. cbn [INR]. rewrite Rmult_0_l, cos_0, sin_0. unfold cx. change (1, 0)%R with (RtoC 1). ring. Qed.
Lemma eb_0 : Cmod (eb 0) <= first_error * Cmod z.
Proof.
  destruct O as [I _]. unfold eb. rewrite I. unfold turned. cbn [INR]. rewrite Rmult_1_l.
  replace (_ - _)%C with ((RtoC (1 - cos x) + cx 0 (x - sin x)) * z)%C
    by (generalize z; intros []; unfold cx, RtoC, Cminus, Cplus, Cmult, Copp; cbn [fst snd]; apply f_equal2; ring).
  rewrite Cmod_mult. apply Rmult_le_compat_r; [apply Cmod_ge_0|]. eapply Rle_trans; [apply Cmod_triangle|].
  rewrite Cmod_R, Cmod_cx0. pose proof (sin_drop x). pose proof (cos_drop x). rewrite (Rabs_right (1 - cos x)) by lra. unfold first_error.
  rewrite pow2_abs. lra.
Qed.
Lemma eb_S n : Cmod (eb (S n)) <= Cmod (ea n) + 2 * Rabs x * Cmod (eb n) + Rabs x ^ 3 / 3 * Cmod z.
Proof.
  destruct O as [_ Q]. destruct (Q n) as [E _].
  assert (D : eb (S n) = (ea n + cx 0 (2 * x) * eb n + cx 0 (2 * (x - sin x)) * (turned x (S n) * z))%C).
  { unfold ea, eb. rewrite E, (turned_next x (S n)), (turned_back x n). generalize (turned x (S n)), z, (a n), (b n). intros [] [] [] [].
    unfold cx, Cminus, Cplus, Cmult, Copp; cbn [fst snd]; apply f_equal2; ring. }
  rewrite D. eapply Rle_trans; [apply Cmod_triangle|]. apply Rplus_le_compat.
  - eapply Rle_trans; [apply Cmod_triangle|]. rewrite Cmod_mult, Cmod_cx0, Rabs_mult, (Rabs_right 2) by lra. lra.
  - rewrite !Cmod_mult, Cmod_cx0, turned_mod, Rmult_1_l. apply Rmult_le_compat_r; [apply Cmod_ge_0|].
    rewrite Rabs_mult, (Rabs_right 2) by lra. pose proof (sin_drop x). lra.
Qed.
Lemma ea_S n : Cmod (ea (S n)) <= 3 / 5 * Cmod (eb n) + 1 / 5 * (Cmod (ea n) + Cmod (eb (S n))) + Rabs x ^ 2 / 5 * Cmod z.
Proof.
  destruct O as [_ Q]. destruct (Q n) as [_ E].
  assert (D : ea (S n) = (RtoC (3 / 5) * eb n + RtoC (1 / 5) * (ea n + eb (S n)) + RtoC (- (2 / 5 * (1 - cos x))) * (turned x (S n) * z))%C).
  { unfold ea, eb. rewrite E, (turned_next x (S n)), (turned_back x n). generalize (turned x (S n)), z, (a n), (b n), (b (S n)). intros [] [] [] [] [].
    unfold cx, RtoC, Cminus, Cplus, Cmult, Copp; cbn [fst snd]; apply f_equal2; field. }
  rewrite D. eapply Rle_trans; [apply Cmod_triangle|]. apply Rplus_le_compat.
  - eapply Rle_trans; [apply Cmod_triangle|]. rewrite !Cmod_mult, !Cmod_R, (Rabs_right (3 / 5)), (Rabs_right (1 / 5)) by lra.
    pose proof (Cmod_triangle (ea n) (eb (S n))). lra.
  - rewrite !Cmod_mult, Cmod_R, turned_mod, Rmult_1_l. apply Rmult_le_compat_r; [apply Cmod_ge_0|].
    pose proof (cos_drop x). rewrite Rabs_Ropp, Rabs_right, pow2_abs by lra. lra.
Qed.
Lemma errors n : let e := (1 + 2 * Rabs x) ^ n * ((first_error + INR n * step_error) * Cmod z) in Cmod (ea n) <= e /\ Cmod (eb n) <= e.
Proof.
  cbv zeta. pose proof (Rabs_pos x) as X. pose proof (Cmod_ge_0 z) as Z.
  assert (X2 : 0 <= Rabs x ^ 2) by (apply pow_le; lra). assert (X3 : 0 <= Rabs x ^ 3) by (apply pow_le; lra).
  induction n as [|n [IA IB]].
  - cbn [pow INR]. rewrite ea_0, Cmod_0. pose proof eb_0. assert (0 <= first_error * Cmod z) by (apply Rmult_le_pos; unfold first_error; lra). lra.
  - set (g := (1 + 2 * Rabs x) ^ n) in *. set (e := g * ((first_error + INR n * step_error) * Cmod z)) in *.
    assert (G : 1 <= g) by (apply pow_R1_Rle; lra). pose proof (Cmod_ge_0 (ea n)).
    assert (T : (1 + 2 * Rabs x) * e + step_error * Cmod z <= (1 + 2 * Rabs x) ^ S n * ((first_error + INR (S n) * step_error) * Cmod z)).
    { rewrite S_INR. cbn [pow]. fold g. replace ((1 + 2 * Rabs x) * g * ((first_error + (INR n + 1) * step_error) * Cmod z))
        with ((1 + 2 * Rabs x) * e + (1 + 2 * Rabs x) * g * (step_error * Cmod z)) by (unfold e; ring).
      apply Rplus_le_compat_l. assert (0 <= step_error * Cmod z) by (apply Rmult_le_pos; unfold step_error; lra).
      assert (1 <= (1 + 2 * Rabs x) * g) by nra. nra. }
    pose proof (eb_S n) as B1. pose proof (ea_S n) as A1.
    assert (2 * Rabs x * Cmod (eb n) <= 2 * Rabs x * e) by (apply Rmult_le_compat_l; lra).
    assert (S1 : step_error * Cmod z = Rabs x ^ 2 / 5 * Cmod z + Rabs x ^ 3 / 3 * Cmod z) by (unfold step_error; ring).
    assert (0 <= Rabs x ^ 2 / 5 * Cmod z) by (apply Rmult_le_pos; lra). assert (0 <= Rabs x ^ 3 / 3 * Cmod z) by (apply Rmult_le_pos; lra).
    assert (0 <= Rabs x * e) by (apply Rmult_le_pos; lra). split; lra.
Qed.
Lemma exp_pow y n : 0 <= y -> (1 + y) ^ n <= exp (INR n * y).
Proof.
  intros Y. induction n as [|n IH]; [cbn; rewrite Rmult_0_l, exp_0; lra|]. rewrite S_INR, Rmult_plus_distr_r, Rmult_1_l, exp_plus. cbn [pow].
  rewrite Rmult_comm. apply Rmult_le_compat; [apply pow_le; lra|lra|exact IH|]. destruct Y as [Y|<-]; [apply Rlt_le, exp_ineq1; lra|rewrite exp_0; lra].
Qed.
Lemma wave_accurate n : Cmod (a n - turned x n * z)%C <= exp (2 * (INR n * Rabs x)) * (first_error + INR n * step_error) * Cmod z.
Proof.
  destruct (errors n) as [E _]. eapply Rle_trans; [exact E|]. rewrite Rmult_assoc. pose proof (Rabs_pos x). pose proof (pos_INR n).
  assert (X2 : 0 <= Rabs x ^ 2) by (apply pow_le; lra). assert (X3 : 0 <= Rabs x ^ 3) by (apply pow_le; lra).
  apply Rmult_le_compat_r.
  - apply Rmult_le_pos; [|apply Cmod_ge_0]. assert (0 <= INR n * step_error) by (apply Rmult_le_pos; unfold step_error; lra). unfold first_error. lra.
  - replace (2 * (INR n * Rabs x)) with (INR n * (2 * Rabs x)) by ring. apply exp_pow. lra.
Qed.
End Accuracy.
