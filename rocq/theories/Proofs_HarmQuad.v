(** Means over the sphere of products of Rodrigues polynomials, and the weights of the rows. *)
From Coq Require Export String.
From Verif Require Import Base Proofs_Base Proofs_Trig Proofs_Poly Spec_Harmonics Proofs_Legendre.
From Coquelicot Require Import Coquelicot.
From Coq Require Import List Lia Lra.
Import ListNotations.
Open Scope R_scope.

Definition mean (f : R -> R) : R := RInt f (-1) 1 / 2.
Lemma mean_ext f g : (forall z, f z = g z) -> mean f = mean g.
Proof. intros H. unfold mean. f_equal. apply RInt_ext. intros x _. apply H. Qed.
Lemma mean_plus d f g : polyf d f -> polyf d g -> mean (fun z => f z + g z) = mean f + mean g.
Proof.
  intros F G. unfold mean. rewrite (RInt_plus f g) by (apply (poly_ex_RInt d); assumption).
  change (plus (RInt f (-1) 1) (RInt g (-1) 1)) with (RInt f (-1) 1 + RInt g (-1) 1). field.
Qed.
Lemma mean_scal d c f : polyf d f -> mean (fun z => c * f z) = c * mean f.
Proof.
  intros F. unfold mean. pose proof (RInt_scal f (-1) 1 c (poly_ex_RInt d f (-1) 1 F)) as H.
  change (RInt (fun z => c * f z) (-1) 1 = c * RInt f (-1) 1) in H. rewrite H. field.
Qed.
Lemma mean_const c : mean (fun _ => c) = c.
Proof. unfold mean. rewrite RInt_const. unfold scal. cbn. unfold mult. cbn. field. Qed.
Lemma mean_derive d f : polyf d f -> mean (Derive f) = (f 1 - f (-1)) / 2.
Proof. intros P. unfold mean. now rewrite (poly_RInt_derive d). Qed.
Lemma mean_exact d f g : polyf d f -> (forall z, is_derive f z (g z)) -> f 1 = 0 -> f (-1) = 0 -> mean g = 0.
Proof.
  intros P D A B. rewrite (mean_ext g (Derive f)) by (intros z; symmetry; apply is_derive_unique, D). rewrite (mean_derive d) by exact P. rewrite A, B. field.
Qed.
Lemma mean_sum d n (F : nat -> R -> R) : (forall i, (i < n)%nat -> polyf d (F i)) -> mean (fun z => Rsum (tab n (fun i => F i z))) = Rsum (tab n (fun i => mean (F i))).
Proof.
  induction n as [|n IH]; intros H; [rewrite (mean_ext _ (fun _ => 0)) by reflexivity; apply mean_const|].
  rewrite Rsum_tab_S, <- IH by (intros i Hi; apply H; lia). rewrite (mean_ext _ (fun z => Rsum (tab n (fun i => F i z)) + F n z)) by (intros z; apply Rsum_tab_S).
  apply (mean_plus d); [|apply H; lia]. apply (poly_sum d n F). intros i Hi. apply H. lia.
Qed.
Lemma mean_opp d f : polyf d f -> mean (fun z => f (- z)) = mean f.
Proof.
  intros P. unfold mean. f_equal. apply is_RInt_unique.
  pose proof (RInt_correct f (-1) 1 (poly_ex_RInt d f (-1) 1 P)) as H. apply is_RInt_swap in H.
  assert (G : is_RInt (fun y => opp (f (- y))) (-1) 1 (opp (RInt f (-1) 1))).
  { apply (is_RInt_comp_opp f (-1) 1). replace (- -1) with 1 by ring. exact H. }
  apply is_RInt_opp in G. rewrite opp_opp in G. apply (is_RInt_ext (fun y => opp (opp (f (- y))))); [|exact G]. intros x _. apply opp_opp.
Qed.

(** weights: the mean of a polynomial of degree < nlat is a sum over the rows *)
Section Rows.
Variable N : nat.
Hypothesis HN : (2 <= N)%nat.
Let node (i : nat) : R := sin (row_lat N i).
Lemma node_cos i : node i = cos (PI * INR i / INR (N - 1)).
Proof. unfold node, row_lat. rewrite sin_shift. reflexivity. Qed.
Lemma node_lt i j : (i < j)%nat -> (j < N)%nat -> node j < node i.
Proof.
  intros Hij Hj. rewrite !node_cos. pose proof PI_RGT_0. assert (0 < INR (N - 1)) by (apply lt_0_INR; lia).
  assert (A : forall k, (k < N)%nat -> 0 <= PI * INR k / INR (N - 1) <= PI).
  { intros k Hk. assert (INR k <= INR (N - 1)) by (apply le_INR; lia). pose proof (pos_INR k). split; [apply Rle_mult_inv_pos; [nra|assumption]|].
    apply (Rmult_le_reg_r (INR (N - 1))); [assumption|]. field_simplify; [nra|lra]. }
  destruct (A i ltac:(lia)), (A j Hj). apply cos_decreasing_1; try assumption. unfold Rdiv. apply Rmult_lt_compat_r; [now apply Rinv_0_lt_compat|].
  apply Rmult_lt_compat_l; [assumption|]. now apply lt_INR.
Qed.
Lemma node_inj i j : (i < N)%nat -> (j < N)%nat -> node i = node j -> i = j.
Proof. intros Hi Hj E. destruct (Nat.lt_trichotomy i j) as [L|[L|L]]; [|exact L|]; [pose proof (node_lt i j L Hj)|pose proof (node_lt j i L Hi)]; lra. Qed.
Lemma nodes_NoDup : NoDup (map node (seq 0 N)).
Proof.
  assert (G : forall l, NoDup l -> (forall i, In i l -> (i < N)%nat) -> NoDup (map node l)).
  { induction l as [|a l IH]; intros ND H; cbn; constructor; inversion ND as [|? ? Na ND']; subst.
    - intros C. apply in_map_iff in C. destruct C as [b [E B]]. apply Na. rewrite (node_inj a b); [exact B|apply H; now left|apply H; now right|now rewrite E].
    - apply IH; [exact ND'|]. intros i Hi. apply H. now right. }
  apply G; [apply seq_NoDup|]. intros i Hi. apply in_seq in Hi. lia.
Qed.
Lemma prod_poly (F : nat -> R -> R) l : (forall k, In k l -> polyf 1 (F k)) -> polyf (length l) (fun z => fold_right Rmult 1 (map (fun k => F k z) l)).
Proof.
  induction l as [|a l IH]; intros H; cbn; [apply (poly_const 1)|]. apply (poly_mult 1 (length l)); [apply H; now left|]. apply IH. intros k Hk. apply H. now right.
Qed.
Lemma others_length i : (i < N)%nat -> length (filter (fun k => negb (Nat.eqb k i)) (seq 0 N)) = (N - 1)%nat.
Proof.
  intros Hi. assert (G : forall n s, (s <= i < s + n)%nat -> S (length (filter (fun k => negb (Nat.eqb k i)) (seq s n))) = n).
  { assert (A : forall n s, (i < s)%nat -> length (filter (fun k => negb (Nat.eqb k i)) (seq s n)) = n).
    { induction n; intros s Hs; cbn; [reflexivity|]. destruct (Nat.eqb_spec s i); [lia|]. cbn. rewrite IHn; lia. }
    induction n; intros s Hs; [lia|]. cbn. destruct (Nat.eqb_spec s i); cbn; [rewrite A; lia|]. rewrite IHn; lia. }
  specialize (G N 0%nat ltac:(lia)). lia.
Qed.
Lemma cardinal_poly i : (i < N)%nat -> polyf (N - 1) (cardinal N i).
Proof.
  intros Hi. rewrite <- (others_length i Hi). apply prod_poly. intros k _. exists [- node k / (node i - node k); / (node i - node k)]. split; [cbn; lia|].
  intros x. cbn. unfold node, Rdiv. ring.
Qed.
Lemma prod_one {A} (f : A -> R) l : (forall k, In k l -> f k = 1) -> fold_right Rmult 1 (map f l) = 1.
Proof. induction l as [|a l IH]; intros H; cbn; [reflexivity|]. rewrite IH by (intros k Hk; apply H; now right). rewrite H by now left. ring. Qed.
Lemma prod_zero {A} (f : A -> R) l a : In a l -> f a = 0 -> fold_right Rmult 1 (map f l) = 0.
Proof. induction l as [|b l IH]; intros H Z; cbn; [easy|]. destruct H as [->|H]; [rewrite Z; ring|]. rewrite IH by assumption. ring. Qed.
Lemma cardinal_node i k : (i < N)%nat -> (k < N)%nat -> cardinal N i (node k) = if Nat.eqb k i then 1 else 0.
Proof.
  intros Hi Hk. unfold cardinal. destruct (Nat.eqb_spec k i) as [->|Ne].
  - apply prod_one. intros j Hj. apply filter_In in Hj. destruct Hj as [Hj E]. apply in_seq in Hj. destruct (Nat.eqb_spec j i); [easy|].
    apply Rinv_r. intros Z. apply n. symmetry. apply node_inj; [exact Hi|lia|]. unfold node. lra.
  - apply (prod_zero _ _ k); [apply filter_In; split; [apply in_seq; lia|]; now destruct (Nat.eqb_spec k i)|]. unfold node, Rdiv. ring.
Qed.
Lemma lagrange d f z : polyf d f -> (d < N)%nat -> f z = Rsum (tab N (fun i => f (node i) * cardinal N i z)).
Proof.
  intros P H. assert (E : f z - Rsum (tab N (fun i => f (node i) * cardinal N i z)) = 0); [|lra].
  apply (poly_zero (N - 1) (fun z => f z - Rsum (tab N (fun i => f (node i) * cardinal N i z))) (map node (seq 0 N))).
  - apply poly_minus; [apply (poly_weaken d); [lia|exact P]|]. apply (poly_sum (N - 1) N (fun i z => f (node i) * cardinal N i z)). intros i Hi. now apply poly_scal, cardinal_poly.
  - apply nodes_NoDup.
  - rewrite map_length, seq_length. lia.
  - intros y Hy. apply in_map_iff in Hy. destruct Hy as [k [<- Hk]]. apply in_seq in Hk.
    rewrite (Rsum_tab_one N _ k); [|lia|].
    + rewrite cardinal_node by lia. rewrite Nat.eqb_refl. ring.
    + intros j Hj Ne. rewrite cardinal_node by lia. destruct (Nat.eqb_spec k j); [congruence|ring].
Qed.
Lemma quadrature d f : polyf d f -> (d < N)%nat -> Rsum (tab N (fun i => row_weight N i * f (node i))) = mean f.
Proof.
  intros P H. rewrite (mean_ext f (fun z => Rsum (tab N (fun i => f (node i) * cardinal N i z)))) by (intros z; now apply (lagrange d)).
  rewrite (mean_sum (N - 1)) by (intros i Hi; now apply poly_scal, cardinal_poly). f_equal. apply map_ext_in. intros i Hi. apply in_seq in Hi.
  rewrite (mean_scal (N - 1)) by (apply cardinal_poly; lia). unfold row_weight, mean. ring.
Qed.
Lemma row_lat_mirror i : (i < N)%nat -> row_lat N (N - 1 - i) = - row_lat N i.
Proof. intros Hi. unfold row_lat. rewrite (minus_INR (N - 1) i) by lia. assert (0 < INR (N - 1)) by (apply lt_0_INR; lia). field. lra. Qed.
Lemma weight_mirror i : (i < N)%nat -> row_weight N (N - 1 - i) = row_weight N i.
Proof.
  intros Hi. change (row_weight N i) with (mean (cardinal N i)). rewrite <- (mean_opp (N - 1)) by now apply cardinal_poly.
  rewrite <- (quadrature (N - 1)) by (try lia; apply poly_comp_opp; now apply cardinal_poly).
  rewrite (Rsum_tab_one N _ (N - 1 - i)); [|lia|].
  - replace (- node (N - 1 - i)) with (node i); [rewrite cardinal_node, Nat.eqb_refl by lia; ring|].
    unfold node. rewrite row_lat_mirror, sin_neg by exact Hi. ring.
  - intros j Hj Ne. replace (- node j) with (node (N - 1 - j)); [|unfold node; now rewrite row_lat_mirror, sin_neg by exact Hj].
    rewrite cardinal_node by lia. destruct (Nat.eqb_spec (N - 1 - j) i); [lia|ring].
Qed.
Lemma node_sq i : cos (row_lat N i) ^ 2 = 1 - node i ^ 2.
Proof. unfold node. pose proof (sin2_cos2 (row_lat N i)) as H. unfold Rsqr in H. nra. Qed.
Lemma weights_sum : Rsum (tab N (row_weight N)) = 1.
Proof.
  rewrite <- (mean_const 1). rewrite <- (quadrature 0) by (apply poly_const || lia). f_equal. apply map_ext. intros i. ring.
Qed.
End Rows.

(** two Rodrigues polynomials of the same order *)
Lemma is_derive_w (m : nat) z : is_derive (fun z => (1 - z ^ 2) ^ m) z (- 2 * INR m * z * (1 - z ^ 2) ^ (m - 1)).
Proof. auto_derive; [exact I|]. rewrite <- Nat.sub_1_r. replace (1 + - (z * (z * 1))) with (1 - z ^ 2) by ring. generalize ((1 - z ^ 2) ^ (m - 1)). intros q. ring. Qed.
Lemma w_split (m : nat) z : (1 <= m)%nat -> (1 - z ^ 2) ^ m = (1 - z ^ 2) * (1 - z ^ 2) ^ (m - 1).
Proof. intros H. replace m with (S (m - 1)) at 1 by lia. reflexivity. Qed.
Lemma poly_wpow m : polyf (2 * m) (fun z => (1 - z ^ 2) ^ m).
Proof. rewrite Nat.mul_comm. apply (poly_pow 2 (fun z => 1 - z ^ 2) m), poly_w. Qed.
Lemma poly_wpq m n l : (m <= n)%nat -> (m <= l)%nat -> polyf (n + l) (fun z => (1 - z ^ 2) ^ m * (rodrigues n m z * rodrigues l m z)).
Proof.
  intros A B. apply (poly_weaken (2 * m + (n - m + (l - m)))); [lia|].
  apply (poly_mult (2 * m) (n - m + (l - m)) (fun z => (1 - z ^ 2) ^ m) (fun z => rodrigues n m z * rodrigues l m z)); [apply poly_wpow|].
  apply (poly_mult (n - m) (l - m) (rodrigues n m) (rodrigues l m)); apply poly_rodrigues.
Qed.
Section Pair.
Variables m n l : nat.
Hypothesis Hn : (m <= n)%nat.
Hypothesis Hl : (m <= l)%nat.
Let w z := 1 - z ^ 2.
Let p := rodrigues n m. Let p1 := rodrigues n (S m).
Let q := rodrigues l m. Let q1 := rodrigues l (S m). Let q2 := rodrigues l (S (S m)).
Definition product z := w z ^ m * (p z * q z).
(** scalar product of the gradients, and of one gradient with the other one turned by a right angle *)
Definition energy z := w z ^ (S m) * (p1 z * q1 z) - INR m * z * w z ^ m * (p1 z * q z + p z * q1 z) + INR m * INR m * (1 + z ^ 2) * w z ^ (m - 1) * (p z * q z).
Definition crossing z := INR m * (w z ^ m * (p1 z * q z + p z * q1 z) - 2 * INR m * z * w z ^ (m - 1) * (p z * q z)).
Let flux z := w z ^ (S m) * (p z * q1 z) - INR m * (z * (w z ^ m * (p z * q z))).
Lemma w_end : w 1 = 0 /\ w (-1) = 0.
Proof. unfold w. split; ring. Qed.
Lemma poly_product : polyf (n + l) product.
Proof. now apply poly_wpq. Qed.
Lemma poly_flux : polyf (n + l + 2) flux.
Proof.
  unfold flux. apply poly_minus.
  - apply (poly_weaken (2 * S m + (n - m + (l - S m)))); [lia|].
    apply (poly_mult (2 * S m) (n - m + (l - S m)) (fun z => (1 - z ^ 2) ^ S m) (fun z => p z * q1 z)); [apply poly_wpow|].
    apply (poly_mult (n - m) (l - S m) p q1); apply poly_rodrigues.
  - apply poly_scal. apply (poly_weaken (S (n + l))); [lia|]. apply (poly_shift (n + l) product), poly_product.
Qed.
Lemma flux_derive z : is_derive flux z (energy z - INR l * (INR l + 1) * product z).
Proof.
  pose proof (rodrigues_step n m z) as Dp. pose proof (rodrigues_step l m z) as Dq. pose proof (rodrigues_step l (S m) z) as Dq1.
  pose proof (is_derive_w m z) as Dw. pose proof (is_derive_w (S m) z) as Dw1. pose proof (rodrigues_ode l m z) as O.
  fold p p1 in Dp. fold q q1 in Dq. fold q1 q2 in Dq1. fold q q1 q2 in O. unfold flux, energy, product, w.
  evar_last.
  { apply @is_derive_minus; [apply @is_derive_mult; [exact Dw1| |intros; apply Rmult_comm]; apply @is_derive_mult; [exact Dp|exact Dq1|intros; apply Rmult_comm]|].
    apply is_derive_scal. apply @is_derive_mult; [apply @is_derive_id| |intros; apply Rmult_comm].
    apply @is_derive_mult; [exact Dw| |intros; apply Rmult_comm]. apply @is_derive_mult; [exact Dp|exact Dq|intros; apply Rmult_comm]. }
  unfold minus, plus, opp, mult, scal, one; cbn -[INR pow]. replace (S m - 1)%nat with m by lia.
  apply Rminus_diag_uniq. transitivity ((1 - z ^ 2) ^ m * p z * ((1 - z ^ 2) * q2 z - 2 * (INR m + 1) * z * q1 z + (INR l * (INR l + 1) - INR m * (INR m + 1)) * q z));
    [|rewrite O; ring]. clear. generalize (p z) (p1 z) (q z) (q1 z) (q2 z). intros a a1 b b1 b2. rewrite S_INR.
  destruct m as [|m'].
  - cbn [Nat.sub pow]. change (INR 0) with 0. ring.
  - replace (S m' - 1)%nat with m' by lia. replace (S m' - 0)%nat with (S m') by lia. cbn [pow]. rewrite S_INR. generalize ((1 - z * (z * 1)) ^ m') (INR m'). intros W M. ring.
Qed.
Lemma mean_energy : mean energy = INR l * (INR l + 1) * mean product.
Proof.
  assert (E : mean (fun z => energy z - INR l * (INR l + 1) * product z) = 0).
  { apply (mean_exact (n + l + 2) flux); [apply poly_flux|apply flux_derive| |]; unfold flux; destruct w_end as [W1 W2]; rewrite ?W1, ?W2;
      (destruct m as [|m']; [cbn; ring|]); cbn [pow]; ring. }
  assert (PF : polyf (n + l + 2) (fun z => energy z - INR l * (INR l + 1) * product z)).
  { apply (poly_weaken (n + l + 2 - 1)); [lia|]. apply (poly_ext _ (Derive flux)); [apply poly_Derive, poly_flux|]. intros z. symmetry. apply is_derive_unique, flux_derive. }
  rewrite (mean_ext energy (fun z => (energy z - INR l * (INR l + 1) * product z) + INR l * (INR l + 1) * product z)) by (intros; ring).
  rewrite (mean_plus (n + l + 2)); [|exact PF|apply poly_scal, (poly_weaken (n + l)); [lia|apply poly_product]].
  rewrite E, (mean_scal (n + l)) by apply poly_product. ring.
Qed.
Lemma crossing_derive z : is_derive (fun z => INR m * product z) z (crossing z).
Proof.
  pose proof (rodrigues_step n m z) as Dp. pose proof (rodrigues_step l m z) as Dq. pose proof (is_derive_w m z) as Dw. fold p p1 in Dp. fold q q1 in Dq.
  unfold product, crossing, w. evar_last.
  { apply is_derive_scal. apply @is_derive_mult; [exact Dw| |intros; apply Rmult_comm]. apply @is_derive_mult; [exact Dp|exact Dq|intros; apply Rmult_comm]. }
  unfold minus, plus, opp, mult, scal; cbn -[INR pow]. unfold mult; cbn -[INR pow]. ring.
Qed.
Lemma mean_crossing : mean crossing = 0.
Proof.
  apply (mean_exact (n + l) (fun z => INR m * product z)); [apply poly_scal, poly_product|apply crossing_derive| |]; unfold product; destruct w_end as [W1 W2]; rewrite ?W1, ?W2;
    (destruct m as [|m']; [cbn; ring|]); cbn [pow]; ring.
Qed.
End Pair.
