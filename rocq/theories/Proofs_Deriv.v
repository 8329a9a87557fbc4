From Coq Require Export String.
From Verif Require Export Base Model_Grid Proofs_Base Proofs_Grid Proofs_Region Spec_Grid Spec_Region Model_Deriv Spec_Deriv.
From Coquelicot Require Import Coquelicot.
From Coq Require Import Lia Lra.
Open Scope R_scope.

Definition st (o : oo) (n : nat) (f : nat -> R) (i : nat) : R :=
  match o with O2 => stencil2 n f i | O4 => stencil4 n f i end.
Definition dv (o : oo) : R := match o with O2 => 2 | O4 => 12 end.

(** every row is a combination of rows at an offset of at most 4 *)
Lemma st_cases o n i (P : R -> Prop) (f : nat -> R) : (S (ord o) <= n)%nat -> (i < n)%nat ->
  (o = O2 -> i = 0%nat -> P (- 3 * f i + 4 * f (i + 1)%nat - f (i + 2)%nat)) ->
  (o = O2 -> (2 <= i)%nat -> i = (n - 1)%nat -> P (f (i - 2)%nat - 4 * f (i - 1)%nat + 3 * f i)) ->
  (o = O2 -> (1 <= i)%nat -> (i + 1 < n)%nat -> P (f (i + 1)%nat - f (i - 1)%nat)) ->
  (o = O4 -> i = 0%nat -> P (- 25 * f i + 48 * f (i + 1)%nat - 36 * f (i + 2)%nat + 16 * f (i + 3)%nat - 3 * f (i + 4)%nat)) ->
  (o = O4 -> i = 1%nat -> P (- 3 * f (i - 1)%nat - 10 * f i + 18 * f (i + 1)%nat - 6 * f (i + 2)%nat + f (i + 3)%nat)) ->
  (o = O4 -> (4 <= i)%nat -> i = (n - 1)%nat -> P (3 * f (i - 4)%nat - 16 * f (i - 3)%nat + 36 * f (i - 2)%nat - 48 * f (i - 1)%nat + 25 * f i)) ->
  (o = O4 -> (3 <= i)%nat -> i = (n - 2)%nat -> P (- f (i - 3)%nat + 6 * f (i - 2)%nat - 18 * f (i - 1)%nat + 10 * f i + 3 * f (i + 1)%nat)) ->
  (o = O4 -> (2 <= i)%nat -> (i + 2 < n)%nat -> P (f (i - 2)%nat - 8 * f (i - 1)%nat + 8 * f (i + 1)%nat - f (i + 2)%nat)) ->
  P (st o n f i).
Proof.
  intros Hn Hi A1 A2 A3 B1 B2 B3 B4 B5. destruct o; cbn [st ord] in *.
  - unfold stencil2. destruct (Nat.eqb_spec i 0) as [->|H0]; [now apply A1|].
    destruct (Nat.eqb_spec i (n - 1)) as [E|H1]; [|apply A3; auto; lia].
    replace (n - 3)%nat with (i - 2)%nat by lia. replace (n - 2)%nat with (i - 1)%nat by lia.
    rewrite <- E. apply A2; auto; lia.
  - unfold stencil4. destruct (Nat.eqb_spec i 0) as [->|H0]; [now apply B1|].
    destruct (Nat.eqb_spec i 1) as [->|H1]; [now apply B2|].
    destruct (Nat.eqb_spec i (n - 1)) as [E|H2].
    { replace (n - 5)%nat with (i - 4)%nat by lia. replace (n - 4)%nat with (i - 3)%nat by lia.
      replace (n - 3)%nat with (i - 2)%nat by lia. replace (n - 2)%nat with (i - 1)%nat by lia.
      rewrite <- E. apply B3; auto; lia. }
    destruct (Nat.eqb_spec i (n - 2)) as [E|H3].
    { replace (n - 5)%nat with (i - 3)%nat by lia. replace (n - 4)%nat with (i - 2)%nat by lia.
      replace (n - 3)%nat with (i - 1)%nat by lia. replace (n - 1)%nat with (i + 1)%nat by lia.
      rewrite <- E. apply B4; auto; lia. }
    apply B5; auto; lia.
Qed.

Lemma st_linear o n a b f h i :
  st o n (fun k => a * f k + b * h k) i = a * st o n f i + b * st o n h i.
Proof.
  destruct o; cbn [st]; unfold stencil2, stencil4.
  - destruct (Nat.eqb i 0); [ring|]. destruct (Nat.eqb i (n - 1)); ring.
  - destruct (Nat.eqb i 0); [ring|]. destruct (Nat.eqb i 1); [ring|].
    destruct (Nat.eqb i (n - 1)); [ring|]. destruct (Nat.eqb i (n - 2)); ring.
Qed.
Lemma st_ext o n f h i : (S (ord o) <= n)%nat -> (i < n)%nat -> (forall k, (k < n)%nat -> f k = h k) ->
  st o n f i = st o n h i.
Proof.
  intros Hn Hi E. destruct o; cbn [st ord] in *; unfold stencil2, stencil4.
  - destruct (Nat.eqb_spec i 0); [rewrite !E by lia; ring|].
    destruct (Nat.eqb_spec i (n - 1)); rewrite !E by lia; ring.
  - destruct (Nat.eqb_spec i 0); [rewrite !E by lia; ring|]. destruct (Nat.eqb_spec i 1); [rewrite !E by lia; ring|].
    destruct (Nat.eqb_spec i (n - 1)); [rewrite !E by lia; ring|].
    destruct (Nat.eqb_spec i (n - 2)); rewrite !E by lia; ring.
Qed.

(** offset of row k from row i *)
Definition dlt (i k : nat) : R := INR k - INR i.
Lemma dlt_0 i : dlt i i = 0. Proof. unfold dlt; ring. Qed.
Lemma dlt_p i m : dlt i (i + m) = INR m. Proof. unfold dlt. rewrite plus_INR. ring. Qed.
Lemma dlt_m i m : (m <= i)%nat -> dlt i (i - m) = - INR m.
Proof. intros H. unfold dlt. rewrite minus_INR by auto. ring. Qed.
Ltac dlts := rewrite ?dlt_0, ?dlt_p; repeat (rewrite dlt_m by lia);
  rewrite ?(INR_IZR_INZ 1), ?(INR_IZR_INZ 2), ?(INR_IZR_INZ 3), ?(INR_IZR_INZ 4);
  cbn [Z.of_nat Pos.of_succ_nat Pos.succ].

(** exactness on polynomials of degree <= order around row i *)
Lemma st_exact o n i h c0 c1 c2 c3 c4 : (S (ord o) <= n)%nat -> (i < n)%nat -> h <> 0 ->
  (o = O2 -> c3 = 0 /\ c4 = 0) ->
  st o n (fun k => c0 + c1 * (dlt i k * h) + c2 * (dlt i k * h) ^ 2 + c3 * (dlt i k * h) ^ 3 + c4 * (dlt i k * h) ^ 4) i
  / dv o / h = c1.
Proof.
  intros Hn Hi Hh Hc.
  apply (st_cases o n i (fun s => s / dv o / h = c1)); auto; intros E; subst o;
    try (destruct (Hc eq_refl) as [-> ->]); intros; cbn [dv]; dlts; field; auto.
Qed.

(** error: remainder bounded by K |offset|^(order+1) *)
Lemma fold_abs a b c d e : Rabs (a + b + c + d + e) <= Rabs a + Rabs b + Rabs c + Rabs d + Rabs e.
Proof.
  eapply Rle_trans; [apply Rabs_triang|]. apply Rplus_le_compat_r.
  eapply Rle_trans; [apply Rabs_triang|]. apply Rplus_le_compat_r.
  eapply Rle_trans; [apply Rabs_triang|]. apply Rplus_le_compat_r. apply Rabs_triang.
Qed.
Lemma sc_abs c x B : Rabs x <= B -> Rabs (c * x) <= Rabs c * B.
Proof. intros H. rewrite Rabs_mult. apply Rmult_le_compat_l; [apply Rabs_pos|auto]. Qed.

Lemma st_bound o n i K r : (S (ord o) <= n)%nat -> (i < n)%nat -> 0 <= K ->
  (forall k, (k < n)%nat -> Rabs (r k) <= K * Rabs (dlt i k) ^ S (ord o)) ->
  Rabs (st o n r i / dv o) <= K * INR (fact (S (ord o))) * cst o.
Proof.
  intros Hn Hi HK H.
  assert (B0 : r i = 0).
  { specialize (H i Hi). rewrite dlt_0, Rabs_R0, pow_ne_zero, Rmult_0_r in H by lia.
    pose proof (Rabs_pos (r i)). destruct (Req_dec (r i) 0); [auto|]. pose proof (Rabs_pos_lt _ H1). lra. }
  assert (BP : forall m, (i + m < n)%nat -> Rabs (r (i + m)%nat) <= K * INR m ^ S (ord o)).
  { intros m Hm. specialize (H _ Hm). rewrite dlt_p in H. rewrite (Rabs_right (INR m)) in H; [auto|].
    apply Rle_ge, pos_INR. }
  assert (BM : forall m, (m <= i)%nat -> Rabs (r (i - m)%nat) <= K * INR m ^ S (ord o)).
  { intros m Hm. specialize (H (i - m)%nat ltac:(lia)). rewrite dlt_m in H by auto.
    rewrite Rabs_Ropp, (Rabs_right (INR m)) in H; [auto|]. apply Rle_ge, pos_INR. }
  pose proof (BP 1%nat) as P1. pose proof (BP 2%nat) as P2. pose proof (BP 3%nat) as P3. pose proof (BP 4%nat) as P4.
  pose proof (BM 1%nat) as M1. pose proof (BM 2%nat) as M2. pose proof (BM 3%nat) as M3. pose proof (BM 4%nat) as M4.
  clear BP BM H.
  apply (st_cases o n i (fun s => Rabs (s / dv o) <= K * INR (fact (S (ord o))) * cst o)); auto; intros E; subst o;
    cbn [ord] in *; intros;
    repeat match goal with X : (?a < n)%nat -> _ |- _ => first [specialize (X ltac:(lia)) | clear X]
                         | X : (?a <= i)%nat -> _ |- _ => first [specialize (X ltac:(lia)) | clear X] end;
    rewrite ?B0; cbn [dv cst];
    rewrite ?(INR_IZR_INZ 1), ?(INR_IZR_INZ 2), ?(INR_IZR_INZ 3), ?(INR_IZR_INZ 4) in *; 
    cbn [Z.of_nat Pos.of_succ_nat Pos.succ pow] in *;
    [replace (INR (fact 3)) with 6 by (simpl; ring)|replace (INR (fact 3)) with 6 by (simpl; ring)|replace (INR (fact 3)) with 6 by (simpl; ring)
    |replace (INR (fact 5)) with 120 by (simpl; ring)|replace (INR (fact 5)) with 120 by (simpl; ring)|replace (INR (fact 5)) with 120 by (simpl; ring)
    |replace (INR (fact 5)) with 120 by (simpl; ring)|replace (INR (fact 5)) with 120 by (simpl; ring)];
    repeat match goal with X : Rabs _ <= _ |- _ => apply Rabs_le_between in X end;
    apply Rabs_le_between; lra.
Qed.

(** ** Taylor expansion in both directions *)
Definition taylor (n : nat) (f : R -> R) (x y : R) : R :=
  sum_f_R0 (fun m => (y - x) ^ m / INR (fact m) * Derive_n f m x) n.

Lemma taylor_up n f M x y : smooth_bounded n f M -> - (PI / 2) <= x -> x < y -> y <= PI / 2 ->
  Rabs (f y - taylor n f x y) <= M / INR (fact (S n)) * Rabs (y - x) ^ S n.
Proof.
  intros [Hd HM] H1 H2 H3.
  destruct (Taylor_Lagrange f n x y H2) as [z [Hz E]].
  { intros t _ k Hk. now apply Hd. }
  rewrite E. unfold taylor.
  match goal with |- Rabs (?a + ?b - ?a) <= _ => replace (a + b - a) with b by ring end.
  pose proof (INR_fact_lt_0 (S n)) as HF.
  rewrite Rabs_mult. unfold Rdiv. rewrite Rabs_mult. rewrite <- RPow_abs.
  rewrite (Rabs_right (/ INR (fact (S n)))) by (apply Rle_ge; left; now apply Rinv_0_lt_compat).
  pose proof (HM z ltac:(lra)).
  replace (M * / INR (fact (S n)) * Rabs (y - x) ^ S n) with (Rabs (y - x) ^ S n * / INR (fact (S n)) * M) by ring.
  apply Rmult_le_compat_l; [|auto]. apply Rmult_le_pos; [apply pow_le, Rabs_pos|left; now apply Rinv_0_lt_compat].
Qed.

Lemma smooth_opp n f M : smooth_bounded n f M -> smooth_bounded n (fun t => f (- t)) M.
Proof.
  intros [Hd HM]. split.
  - intros t k Hk. apply ex_derive_n_comp_opp. apply filter_forall. intros u j Hj. apply Hd. lia.
  - intros t Ht. rewrite Derive_n_comp_opp by (apply filter_forall; intros u j Hj; apply Hd; lia).
    rewrite Rabs_mult, <- RPow_abs. replace (Rabs (-1)) with 1.
    + rewrite pow1, Rmult_1_l. apply HM. lra.
    + rewrite Rabs_left; lra.
Qed.

Lemma taylor_opp n f x y : (forall t k, (k <= S n)%nat -> ex_derive_n f k t) ->
  taylor n (fun t => f (- t)) (- x) (- y) = taylor n f x y.
Proof.
  intros Hd. unfold taylor. apply sum_eq. intros m Hm.
  rewrite Derive_n_comp_opp by (apply filter_forall; intros u j Hj; apply Hd; lia).
  rewrite Ropp_involutive. replace (- y - - x) with ((-1) * (y - x)) by ring. rewrite Rpow_mult_distr.
  unfold Rdiv. replace ((-1) ^ m * (y - x) ^ m * / INR (fact m) * ((-1) ^ m * Derive_n f m x))
    with (((-1) ^ m * (-1) ^ m) * ((y - x) ^ m * / INR (fact m) * Derive_n f m x)) by ring.
  rewrite <- Rpow_mult_distr. replace (-1 * -1) with 1 by ring. rewrite pow1. ring.
Qed.

Lemma taylor_self n f x : taylor n f x x = f x.
Proof.
  unfold taylor. induction n as [|n IH]; simpl; [field|].
  simpl in IH. rewrite IH. replace (x - x) with 0 by ring. unfold Rdiv. ring.
Qed.

Lemma taylor_bound n f M x y : smooth_bounded n f M -> - (PI / 2) <= x <= PI / 2 -> - (PI / 2) <= y <= PI / 2 ->
  Rabs (f y - taylor n f x y) <= M / INR (fact (S n)) * Rabs (y - x) ^ S n.
Proof.
  intros H Hx Hy. destruct (Rtotal_order x y) as [Hlt|[->|Hgt]].
  - apply taylor_up; auto; lra.
  - rewrite taylor_self. replace (f y - f y) with 0 by ring. replace (y - y) with 0 by ring.
    rewrite Rabs_R0, pow_i by lia. lra.
  - rewrite <- (taylor_opp n f x y) by apply H.
    pose proof (taylor_up n _ M (- x) (- y) (smooth_opp n f M H) ltac:(lra) ltac:(lra) ltac:(lra)) as B.
    cbv beta in B. rewrite Ropp_involutive in B. replace (- y - - x) with (- (y - x)) in B by ring. now rewrite Rabs_Ropp in B.
Qed.

(** ** polynomials *)
Lemma peval5 cs x : (length cs <= 5)%nat ->
  peval cs x = nth 0 cs 0 + nth 1 cs 0 * x + nth 2 cs 0 * x ^ 2 + nth 3 cs 0 * x ^ 3 + nth 4 cs 0 * x ^ 4.
Proof.
  intros H. destruct cs as [|c0 [|c1 [|c2 [|c3 [|c4 [|c5 cs]]]]]]; simpl in *; try lia; ring.
Qed.
Lemma peval5_derive cs x : (length cs <= 5)%nat ->
  is_derive (peval cs) x (nth 1 cs 0 + 2 * nth 2 cs 0 * x + 3 * nth 3 cs 0 * x ^ 2 + 4 * nth 4 cs 0 * x ^ 3).
Proof.
  intros H. apply is_derive_ext with
    (fun x => nth 0 cs 0 + nth 1 cs 0 * x + nth 2 cs 0 * x ^ 2 + nth 3 cs 0 * x ^ 3 + nth 4 cs 0 * x ^ 4).
  - intros t. now rewrite peval5.
  - auto_derive; [auto|]. simpl. ring.
Qed.

Lemma poly_exact o n i h cs x0 : (S (ord o) <= n)%nat -> (i < n)%nat -> h <> 0 -> (length cs <= S (ord o))%nat ->
  is_derive (peval cs) (x0 + INR i * h) (st o n (fun k => peval cs (x0 + INR k * h)) i / dv o / h).
Proof.
  intros Hn Hi Hh Hl. assert (Hl5 : (length cs <= 5)%nat) by (destruct o; simpl in Hl; lia).
  set (x := x0 + INR i * h).
  set (a0 := nth 0 cs 0). set (a1 := nth 1 cs 0). set (a2 := nth 2 cs 0). set (a3 := nth 3 cs 0). set (a4 := nth 4 cs 0).
  rewrite (st_ext o n _ (fun k =>
      (a0 + a1 * x + a2 * x ^ 2 + a3 * x ^ 3 + a4 * x ^ 4)
      + (a1 + 2 * a2 * x + 3 * a3 * x ^ 2 + 4 * a4 * x ^ 3) * (dlt i k * h)
      + (a2 + 3 * a3 * x + 6 * a4 * x ^ 2) * (dlt i k * h) ^ 2
      + (a3 + 4 * a4 * x) * (dlt i k * h) ^ 3
      + a4 * (dlt i k * h) ^ 4)); auto.
  - rewrite st_exact; auto.
    + now apply peval5_derive.
    + intros ->. unfold a3, a4. simpl in Hl. rewrite !nth_overflow by lia. split; ring.
  - intros k Hk. rewrite peval5 by auto. fold a0 a1 a2 a3 a4. unfold x, dlt. ring.
Qed.

Lemma smooth_error o n i h f M x0 : (S (ord o) <= n)%nat -> (i < n)%nat -> h <> 0 ->
  smooth_bounded (ord o) f M -> (forall k, (k < n)%nat -> - (PI / 2) <= x0 + INR k * h <= PI / 2) ->
  Rabs (st o n (fun k => f (x0 + INR k * h)) i / dv o / h - Derive f (x0 + INR i * h))
  <= cst o * Rabs h ^ ord o * M.
Proof.
  intros Hn Hi Hh HS HR. set (x := x0 + INR i * h).
  assert (HM : 0 <= M).
  { eapply Rle_trans; [apply Rabs_pos|]. apply (proj2 HS x). now apply HR. }
  set (T := fun k => taylor (ord o) f x (x0 + INR k * h)).
  assert (ET : st o n T i / dv o / h = Derive f x).
  { assert (Y : forall k, x0 + INR k * h - x = dlt i k * h) by (intros; unfold x, dlt; ring).
    destruct o; cbn [ord] in *.
    - rewrite (st_ext O2 n T (fun k => f x + Derive f x * (dlt i k * h) + (Derive_n f 2 x / 2) * (dlt i k * h) ^ 2
         + 0 * (dlt i k * h) ^ 3 + 0 * (dlt i k * h) ^ 4)); auto.
      + apply st_exact; auto.
      + intros k Hk. unfold T, taylor. rewrite Y. cbn [sum_f_R0].
        change (Derive_n f 0 x) with (f x). change (Derive_n f 1 x) with (Derive f x).
        repeat match goal with |- context [Derive_n f ?a x] => generalize (Derive_n f a x); intros ? end.
        simpl. field.
    - rewrite (st_ext O4 n T (fun k => f x + Derive f x * (dlt i k * h) + (Derive_n f 2 x / 2) * (dlt i k * h) ^ 2
         + (Derive_n f 3 x / 6) * (dlt i k * h) ^ 3 + (Derive_n f 4 x / 24) * (dlt i k * h) ^ 4)); auto.
      + apply st_exact; auto. discriminate.
      + intros k Hk. unfold T, taylor. rewrite Y. cbn [sum_f_R0].
        change (Derive_n f 0 x) with (f x). change (Derive_n f 1 x) with (Derive f x).
        repeat match goal with |- context [Derive_n f ?a x] => generalize (Derive_n f a x); intros ? end.
        simpl. field. }
  set (v := fun k => f (x0 + INR k * h)).
  assert (HB : forall k, (k < n)%nat -> Rabs (1 * v k + (-1) * T k) <= M / INR (fact (S (ord o))) * Rabs h ^ S (ord o) * Rabs (dlt i k) ^ S (ord o)).
  { intros k Hk. replace (1 * v k + (-1) * T k) with (v k - T k) by ring.
    eapply Rle_trans; [apply (taylor_bound (ord o) f M x (x0 + INR k * h) HS); apply HR; auto|].
    replace (x0 + INR k * h - x) with (h * dlt i k) by (unfold x, dlt; ring).
    rewrite Rabs_mult, Rpow_mult_distr. lra. }
  pose proof (INR_fact_lt_0 (S (ord o))) as HF.
  assert (HK : 0 <= M / INR (fact (S (ord o))) * Rabs h ^ S (ord o)).
  { apply Rmult_le_pos; [apply Rmult_le_pos; [auto|left; now apply Rinv_0_lt_compat]|apply pow_le, Rabs_pos]. }
  pose proof (st_bound o n i _ _ Hn Hi HK HB) as B.
  rewrite st_linear in B.
  assert (dvp : 0 < dv o) by (destruct o; simpl; lra).
  assert (HA : 0 < Rabs h) by now apply Rabs_pos_lt.
  replace (st o n v i / dv o / h - Derive f x) with (((1 * st o n v i + -1 * st o n T i) / dv o) / h).
  2:{ rewrite <- ET. field. lra. }
  unfold Rdiv at 1. rewrite Rabs_mult, Rabs_inv.
  apply Rmult_le_reg_r with (Rabs h); [auto|]. rewrite Rmult_assoc, Rinv_l, Rmult_1_r by lra.
  eapply Rle_trans; [exact B|]. apply Req_le. rewrite <- tech_pow_Rmult. field. lra.
Qed.

(** ** the grid *)
Section Grid.
Variables (res rs om : R) (nt : option Z) (g : grid).
Hypothesis Hg : mk_grid res rs om nt = Ok g.
Let F := mk_grid_facts _ _ _ _ _ Hg.

(** actual spacing of the latitudes *)
Definition hphi : R := - PI / INR (g_nlat g - 1).
Lemma nlatm1 : 2 <= INR (g_nlat g - 1).
Proof. pose proof (gf_nlat3 _ _ _ _ F). apply (le_INR 2). lia. Qed.
Lemma phi_form i : (i < g_nlat g)%nat -> nth i (g_phi g) 0 = PI / 2 + INR i * hphi.
Proof.
  intros Hi. rewrite phi_nth, lat_nth by auto. pose proof nlatm1. unfold deg2rad, hphi. field. lra.
Qed.
Lemma hphi_ne : hphi <> 0.
Proof. unfold hphi. pose proof nlatm1. pose proof PI_RGT_0. intros E. assert (0 < PI / INR (g_nlat g - 1)) by (apply Rdiv_lt_0_compat; lra). lra. Qed.
Lemma dphi_val : g_dphi g = - (PI * res / 180).
Proof. unfold g_dphi, g_dlat, deg2rad. rewrite (gf_res _ _ _ _ F). field. Qed.
Lemma dphi_ne : g_dphi g <> 0.
Proof.
  rewrite dphi_val. pose proof PI_RGT_0. pose proof (gf_res_pos _ _ _ _ F).
  assert (0 < PI * res) by (apply Rmult_lt_0_compat; auto). lra.
Qed.
(** ratio of nominal and actual spacing *)
Definition eta : R := INR (g_nlat g - 1) * res / 180.
Lemma dphi_hphi : g_dphi g = eta * hphi.
Proof. rewrite dphi_val. unfold eta, hphi. pose proof nlatm1. field. lra. Qed.
Lemma eta_pos : 0 < eta <= 1.
Proof.
  unfold eta. pose proof nlatm1. pose proof (gf_res_pos _ _ _ _ F).
  destruct (grid_shape_floor _ _ _ _ _ Hg) as [_ [? _]].
  assert (0 < INR (g_nlat g - 1) * res) by (apply Rmult_lt_0_compat; lra). lra.
Qed.
Lemma eta_one : eta = 1 <-> is_integer (180 / res).
Proof.
  pose proof (gf_res_pos _ _ _ _ F) as Hr. split.
  - intros E. exists (Z.of_nat (g_nlat g - 1)). rewrite <- INR_IZR_INZ. unfold eta in E.
    apply Rmult_eq_reg_r with res; [|lra]. unfold Rdiv. rewrite Rmult_assoc, Rinv_l by lra. lra.
  - intros [z Hz]. destruct (grid_shape_floor _ _ _ _ _ Hg) as [_ [B1 B2]].
    assert (E180 : 180 = IZR z * res) by (rewrite <- Hz; field; lra).
    rewrite INR_IZR_INZ in B1, B2. rewrite E180 in B1, B2.
    apply Rmult_le_reg_r in B1; [|lra]. apply Rmult_lt_reg_r in B2; [|lra].
    apply le_IZR in B1. rewrite <- plus_IZR in B2. apply lt_IZR in B2.
    unfold eta. rewrite INR_IZR_INZ. replace (Z.of_nat (g_nlat g - 1)) with z by lia. rewrite <- E180. field.
Qed.

Lemma dm_1d o a v : denotes a o -> (S (ord o) <= g_nlat g)%nat -> length v = g_nlat g ->
  derivative_meridional g (A1 v) a = Ok (A1 (tab (g_nlat g) (fun i =>
    (if is_pole (g_nlat g) i then 0 else st o (g_nlat g) (fun k => nth k v 0) i) / dv o / g_dphi g))).
Proof.
  intros Hd Hn Hl. unfold derivative_meridional. rewrite Hl.
  destruct o; cbn [denotes ord st dv] in *.
  - subst a. replace (Reqb 2 2) with true by (symmetry; now apply Reqb_true).
    replace (Nat.leb 3 (g_nlat g)) with true by (symmetry; apply Nat.leb_le; lia). reflexivity.
  - assert (E : match a with ONum x => Reqb x 2 | _ => false end = false
             /\ match a with ONum x => Reqb x 4 | ONone => true | OOther => false end = true).
    { destruct Hd as [-> | ->]; split; try reflexivity; [apply Reqb_false; lra|now apply Reqb_true]. }
    destruct E as [-> ->].
    replace (Nat.leb 5 (g_nlat g)) with true by (symmetry; apply Nat.leb_le; lia).
    replace (Nat.ltb (g_nlat g) 5) with false by (symmetry; apply Nat.ltb_ge; lia). reflexivity.
Qed.
Lemma dm_2d o a nc m : denotes a o -> (S (ord o) <= g_nlat g)%nat -> shaped (g_nlat g) nc m ->
  derivative_meridional g (A2 m) a = Ok (A2 (mat_of (g_nlat g) nc (fun i j =>
    st o (g_nlat g) (fun k => mget m k j) i / dv o / g_dphi g))).
Proof.
  intros Hd Hn Hs. unfold derivative_meridional. rewrite (shaped_ncols (g_nlat g) nc) by (auto; lia).
  rewrite (proj1 Hs).
  destruct o; cbn [denotes ord st dv] in *.
  - subst a. replace (Reqb 2 2) with true by (symmetry; now apply Reqb_true).
    replace (Nat.leb 3 (g_nlat g)) with true by (symmetry; apply Nat.leb_le; lia).
    replace (Nat.ltb (g_nlat g) 3) with false by (symmetry; apply Nat.ltb_ge; lia). reflexivity.
  - assert (E : match a with ONum x => Reqb x 2 | _ => false end = false
             /\ match a with ONum x => Reqb x 4 | ONone => true | OOther => false end = true).
    { destruct Hd as [-> | ->]; split; try reflexivity; [apply Reqb_false; lra|now apply Reqb_true]. }
    destruct E as [-> ->].
    replace (Nat.leb 5 (g_nlat g)) with true by (symmetry; apply Nat.leb_le; lia).
    replace (Nat.ltb (g_nlat g) 5) with false by (symmetry; apply Nat.ltb_ge; lia). reflexivity.
Qed.

Lemma is_pole_true i : (i < g_nlat g)%nat -> is_pole (g_nlat g) i = true <-> (i = 0 \/ i = g_nlat g - 1)%nat.
Proof.
  intros Hi. unfold is_pole. rewrite orb_true_iff, !Nat.eqb_eq. tauto.
Qed.

Lemma st_phi o i (f : R -> R) : (S (ord o) <= g_nlat g)%nat -> (i < g_nlat g)%nat ->
  st o (g_nlat g) (fun k => f (nth k (g_phi g) 0)) i = st o (g_nlat g) (fun k => f (PI / 2 + INR k * hphi)) i.
Proof. intros Hn Hi. apply st_ext; auto. intros k Hk. now rewrite phi_form. Qed.

(** C17: factor 1/eta in general *)
Lemma poly_2d o a nc (cs : nat -> list R) : denotes a o -> (S (ord o) <= g_nlat g)%nat ->
  (forall j, (j < nc)%nat -> (length (cs j) <= S (ord o))%nat) ->
  exists d, derivative_meridional g (A2 (mat_of (g_nlat g) nc (fun i j => peval (cs j) (nth i (g_phi g) 0)))) a = Ok (A2 d)
    /\ shaped (g_nlat g) nc d
    /\ forall i j, (i < g_nlat g)%nat -> (j < nc)%nat -> is_derive (peval (cs j)) (nth i (g_phi g) 0) (eta * mget d i j).
Proof.
  intros Hd Hn Hl. eexists. split; [apply (dm_2d o); auto using shaped_mat_of|].
  split; [apply shaped_mat_of|]. intros i j Hi Hj. rewrite mget_mat_of by auto.
  rewrite (st_ext o _ _ (fun k => peval (cs j) (nth k (g_phi g) 0))); auto.
  2:{ intros k Hk. now rewrite mget_mat_of. }
  rewrite (st_phi o i (peval (cs j))) by auto. rewrite phi_form by auto.
  pose proof (poly_exact o (g_nlat g) i hphi (cs j) (PI / 2) Hn Hi hphi_ne (Hl j Hj)) as P.
  replace (eta * _) with (st o (g_nlat g) (fun k => peval (cs j) (PI / 2 + INR k * hphi)) i / dv o / hphi); [exact P|].
  rewrite dphi_hphi. pose proof hphi_ne. pose proof eta_pos. assert (dv o <> 0) by (destruct o; simpl; lra).
  field. repeat split; auto; lra.
Qed.
Lemma poly_1d o a cs : denotes a o -> (S (ord o) <= g_nlat g)%nat -> (length cs <= S (ord o))%nat ->
  exists d, derivative_meridional g (A1 (map (peval cs) (g_phi g))) a = Ok (A1 d)
    /\ length d = g_nlat g /\ nth 0 d 0 = 0 /\ nth (g_nlat g - 1) d 0 = 0
    /\ forall i, (0 < i < g_nlat g - 1)%nat -> is_derive (peval cs) (nth i (g_phi g) 0) (eta * nth i d 0).
Proof.
  intros Hd Hn Hl. eexists. split; [apply (dm_1d o); auto; now rewrite map_length, phi_length|].
  assert (dvn : dv o <> 0) by (destruct o; simpl; lra).
  split; [apply tab_length|]. split; [|split].
  - rewrite tab_nth by lia. replace (is_pole (g_nlat g) 0) with true by reflexivity. pose proof dphi_ne. field. auto.
  - rewrite tab_nth by lia. rewrite (proj2 (is_pole_true (g_nlat g - 1)%nat ltac:(lia))) by auto. pose proof dphi_ne. field. auto.
  - intros i Hi. rewrite tab_nth by lia.
    replace (is_pole (g_nlat g) i) with false.
    2:{ symmetry. apply not_true_is_false. rewrite is_pole_true by lia. lia. }
    rewrite (st_ext o _ _ (fun k => peval cs (nth k (g_phi g) 0))); [|auto|lia|].
    2:{ intros k Hk. apply nth_map_lt. now rewrite phi_length. }
    rewrite (st_phi o i (peval cs)) by (auto; lia). rewrite phi_form by lia.
    pose proof (poly_exact o (g_nlat g) i hphi cs (PI / 2) Hn ltac:(lia) hphi_ne Hl) as P.
    replace (eta * _) with (st o (g_nlat g) (fun k => peval cs (PI / 2 + INR k * hphi)) i / dv o / hphi); [exact P|].
    rewrite dphi_hphi. pose proof hphi_ne. pose proof eta_pos.
    field. repeat split; auto; lra.
Qed.

(** C18 *)
Lemma smooth_2d o a nc (f : nat -> R -> R) M : denotes a o -> (S (ord o) <= g_nlat g)%nat ->
  is_integer (180 / res) ->
  (forall j, (j < nc)%nat -> smooth_bounded (ord o) (f j) M) ->
  exists d, derivative_meridional g (A2 (mat_of (g_nlat g) nc (fun i j => f j (nth i (g_phi g) 0)))) a = Ok (A2 d)
    /\ shaped (g_nlat g) nc d
    /\ forall i j, (i < g_nlat g)%nat -> (j < nc)%nat ->
         Rabs (mget d i j - Derive (f j) (nth i (g_phi g) 0)) <= cst o * Rabs (g_dphi g) ^ ord o * M.
Proof.
  intros Hd Hn HI Hs. apply eta_one in HI. eexists. split; [apply (dm_2d o); auto using shaped_mat_of|].
  split; [apply shaped_mat_of|]. intros i j Hi Hj. rewrite mget_mat_of by auto.
  rewrite (st_ext o _ _ (fun k => f j (nth k (g_phi g) 0))); auto.
  2:{ intros k Hk. now rewrite mget_mat_of. }
  rewrite (st_phi o i (f j)) by auto. rewrite phi_form by auto.
  rewrite dphi_hphi, HI, Rmult_1_l.
  apply smooth_error; auto using hphi_ne.
  intros k Hk. rewrite <- phi_form by auto.
  rewrite phi_nth by auto. assert (Hin : In (nth k (g_lat g) 0) (g_lat g)) by (apply nth_In; now rewrite lat_length).
  apply lat_bounds in Hin. rewrite <- deg2rad_m90, <- deg2rad_90. split; apply (proj1 (deg2rad_le _ _)); lra.
Qed.
Lemma smooth_1d o a (f : R -> R) M : denotes a o -> (S (ord o) <= g_nlat g)%nat ->
  is_integer (180 / res) -> smooth_bounded (ord o) f M ->
  exists d, derivative_meridional g (A1 (map f (g_phi g))) a = Ok (A1 d)
    /\ length d = g_nlat g
    /\ forall i, (0 < i < g_nlat g - 1)%nat ->
         Rabs (nth i d 0 - Derive f (nth i (g_phi g) 0)) <= cst o * Rabs (g_dphi g) ^ ord o * M.
Proof.
  intros Hd Hn HI Hs. apply eta_one in HI. eexists. split; [apply (dm_1d o); auto; now rewrite map_length, phi_length|].
  split; [apply tab_length|]. intros i Hi. rewrite tab_nth by lia.
  replace (is_pole (g_nlat g) i) with false.
  2:{ symmetry. apply not_true_is_false. rewrite is_pole_true by lia. lia. }
  rewrite (st_ext o _ _ (fun k => f (nth k (g_phi g) 0))); [|auto|lia|].
  2:{ intros k Hk. apply nth_map_lt. now rewrite phi_length. }
  rewrite (st_phi o i f) by (auto; lia). rewrite phi_form by lia.
  rewrite dphi_hphi, HI, Rmult_1_l.
  apply smooth_error; auto using hphi_ne; [lia|].
  intros k Hk. rewrite <- phi_form by auto.
  rewrite phi_nth by auto. assert (Hin : In (nth k (g_lat g) 0) (g_lat g)) by (apply nth_In; now rewrite lat_length).
  apply lat_bounds in Hin. rewrite <- deg2rad_m90, <- deg2rad_90. split; apply (proj1 (deg2rad_le _ _)); lra.
Qed.

(** linearity *)
Lemma linear_2d o a nc m1 m2 c1 c2 : denotes a o -> (S (ord o) <= g_nlat g)%nat ->
  shaped (g_nlat g) nc m1 -> shaped (g_nlat g) nc m2 ->
  exists d1 d2, derivative_meridional g (A2 m1) a = Ok (A2 d1) /\ derivative_meridional g (A2 m2) a = Ok (A2 d2)
    /\ derivative_meridional g (A2 (madd (mscale c1 m1) (mscale c2 m2))) a = Ok (A2 (madd (mscale c1 d1) (mscale c2 d2))).
Proof.
  intros Hd Hn H1 H2. eexists. eexists.
  split; [apply (dm_2d o a nc); auto|]. split; [apply (dm_2d o a nc); auto|].
  assert (S1 := shaped_mscale _ _ c1 _ H1). assert (S2 := shaped_mscale _ _ c2 _ H2).
  rewrite (dm_2d o a nc) by (auto; now apply shaped_map2). do 2 f_equal.
  set (A := mat_of (g_nlat g) nc (fun i j => st o (g_nlat g) (fun k => mget m1 k j) i / dv o / g_dphi g)).
  set (B := mat_of (g_nlat g) nc (fun i j => st o (g_nlat g) (fun k => mget m2 k j) i / dv o / g_dphi g)).
  assert (SA : shaped (g_nlat g) nc A) by apply shaped_mat_of. assert (SB : shaped (g_nlat g) nc B) by apply shaped_mat_of.
  apply (mat_ext (g_nlat g) nc); [apply shaped_mat_of|apply shaped_map2; now apply shaped_mscale|].
  intros i j Hi Hj. rewrite mget_mat_of by auto.
  unfold madd, vadd. rewrite (mget_map2 (g_nlat g) nc) by (auto; now apply shaped_mscale).
  rewrite !(mget_mscale (g_nlat g) nc) by auto. unfold A, B. rewrite !mget_mat_of by auto.
  rewrite (st_ext o _ _ (fun k => c1 * mget m1 k j + c2 * mget m2 k j)); auto.
  - rewrite st_linear. unfold Rdiv. ring.
  - intros k Hk. rewrite (mget_map2 (g_nlat g) nc) by auto. now rewrite !(mget_mscale (g_nlat g) nc) by auto.
Qed.
Lemma linear_1d o a v1 v2 c1 c2 : denotes a o -> (S (ord o) <= g_nlat g)%nat ->
  length v1 = g_nlat g -> length v2 = g_nlat g ->
  exists d1 d2, derivative_meridional g (A1 v1) a = Ok (A1 d1) /\ derivative_meridional g (A1 v2) a = Ok (A1 d2)
    /\ derivative_meridional g (A1 (vadd (vscale c1 v1) (vscale c2 v2))) a = Ok (A1 (vadd (vscale c1 d1) (vscale c2 d2))).
Proof.
  intros Hd Hn H1 H2. eexists. eexists.
  split; [now apply (dm_1d o)|]. split; [now apply (dm_1d o)|].
  assert (HL : length (vadd (vscale c1 v1) (vscale c2 v2)) = g_nlat g).
  { unfold vadd, vscale. rewrite map2_length, !map_length. lia. }
  rewrite (dm_1d o) by auto. do 2 f_equal. unfold vadd, vscale. rewrite !tab_map, map2_tab.
  apply tab_ext. intros i Hi. destruct (is_pole (g_nlat g) i).
  - unfold Rdiv. ring.
  - rewrite (st_ext o _ _ (fun k => c1 * nth k v1 0 + c2 * nth k v2 0)); auto.
    + rewrite st_linear. unfold Rdiv. ring.
    + intros k Hk. rewrite (map2_nth _ _ _ _ 0 0 0) by (rewrite !map_length; lia).
      rewrite !(nth_map_lt _ _ _ 0) by lia. reflexivity.
Qed.
End Grid.

(** ** C17 partial/refuted, C19 *)
Lemma eta_integer res rs om nt g : mk_grid res rs om nt = Ok g -> is_integer (180 / res) -> eta res g = 1.
Proof. intros Hg. apply (eta_one res rs om nt g Hg). Qed.

Lemma poly_1d_exact : forall res rs om nt g, mk_grid res rs om nt = Ok g -> is_integer (180 / res) ->
  forall o a cs, denotes a o -> (S (ord o) <= g_nlat g)%nat -> (length cs <= S (ord o))%nat ->
  exists d, derivative_meridional g (A1 (map (peval cs) (g_phi g))) a = Ok (A1 d)
    /\ length d = g_nlat g /\ nth 0 d 0 = 0 /\ nth (g_nlat g - 1) d 0 = 0
    /\ forall i, (0 < i < g_nlat g - 1)%nat -> is_derive (peval cs) (nth i (g_phi g) 0) (nth i d 0).
Proof.
  intros res rs om nt g Hg HI o a cs Hd Hn Hl.
  destruct (poly_1d _ _ _ _ _ Hg o a cs Hd Hn Hl) as [d [H1 [H2 [H3 [H4 H5]]]]].
  exists d. repeat (split; [assumption|]). intros i Hi. specialize (H5 i Hi).
  now rewrite (eta_integer _ _ _ _ _ Hg HI), Rmult_1_l in H5.
Qed.
Lemma poly_2d_exact : forall res rs om nt g, mk_grid res rs om nt = Ok g -> is_integer (180 / res) ->
  forall o a nc (cs : nat -> list R), denotes a o -> (S (ord o) <= g_nlat g)%nat ->
  (forall j, (j < nc)%nat -> (length (cs j) <= S (ord o))%nat) ->
  exists d, derivative_meridional g (A2 (mat_of (g_nlat g) nc (fun i j => peval (cs j) (nth i (g_phi g) 0)))) a = Ok (A2 d)
    /\ shaped (g_nlat g) nc d
    /\ forall i j, (i < g_nlat g)%nat -> (j < nc)%nat -> is_derive (peval (cs j)) (nth i (g_phi g) 0) (mget d i j).
Proof.
  intros res rs om nt g Hg HI o a nc cs Hd Hn Hl.
  destruct (poly_2d _ _ _ _ _ Hg o a nc cs Hd Hn Hl) as [d [H1 [H2 H3]]].
  exists d. repeat (split; [assumption|]). intros i j Hi Hj. specialize (H3 i j Hi Hj).
  now rewrite (eta_integer _ _ _ _ _ Hg HI), Rmult_1_l in H3.
Qed.

Lemma peval01 (t : R) : peval [0; 1] t = t.
Proof. simpl. ring. Qed.
Lemma poly_refuted : exists g d, mk_grid 7 1 1 None = Ok g
  /\ derivative_meridional g (A1 (g_phi g)) ONone = Ok (A1 d)
  /\ (forall i, (0 < i < g_nlat g - 1)%nat -> nth i d 0 = 36 / 35)
  /\ forall x, is_derive (fun t => t) x 1.
Proof.
  destruct grid7 as [g [Hg [Hlon [Hlat [Hrs Hres]]]]].
  destruct (poly_1d _ _ _ _ _ Hg O4 ONone [0; 1] ltac:(now right) ltac:(rewrite Hlat; simpl; lia) ltac:(simpl; lia))
    as [d [H1 [_ [_ [_ H5]]]]].
  exists g, d. split; [exact Hg|]. split; [|split].
  - replace (g_phi g) with (map (peval [0; 1]) (g_phi g)) at 1; [exact H1|].
    rewrite <- (map_id (g_phi g)) at 2. apply map_ext. intros t. simpl. ring.
  - intros i Hi. specialize (H5 i Hi).
    assert (E : is_derive (peval [0; 1]) (nth i (g_phi g) 0) 1).
    { apply is_derive_ext with (fun t => t); [intros t; symmetry; apply (peval01 t)|]. apply (is_derive_id (K := R_AbsRing)). }
    apply is_derive_unique in H5. apply is_derive_unique in E. rewrite E in H5.
    unfold eta in H5. rewrite Hlat in H5. rewrite (INR_IZR_INZ (26 - 1)) in H5. simpl in H5. lra.
  - intros x. apply (is_derive_id (K := R_AbsRing)).
Qed.

Lemma bad_order g f a : f <> AOther -> a <> ONum 2 -> a <> ONum 4 -> a <> ONone ->
  derivative_meridional g f a = Err NotImplementedError.
Proof.
  intros Hf H2 H4 HN.
  assert (E2 : match a with ONum x => Reqb x 2 | _ => false end = false).
  { destruct a; auto. apply Reqb_false. congruence. }
  assert (E4 : match a with ONum x => Reqb x 4 | ONone => true | OOther => false end = false).
  { destruct a; auto; [congruence|]. apply Reqb_false. congruence. }
  unfold derivative_meridional. rewrite E2, E4. now destruct f.
Qed.
Lemma small_grid g f a o : f <> AOther -> denotes a o -> (g_nlat g < S (ord o))%nat ->
  derivative_meridional g f a = Err AssertionError.
Proof.
  intros Hf Hd Hn. unfold derivative_meridional.
  destruct o; cbn [denotes ord] in *.
  - subst a. replace (Reqb 2 2) with true by (symmetry; now apply Reqb_true).
    replace (Nat.leb 3 (g_nlat g)) with false by (symmetry; apply Nat.leb_gt; lia). now destruct f.
  - assert (E : match a with ONum x => Reqb x 2 | _ => false end = false
             /\ match a with ONum x => Reqb x 4 | ONone => true | OOther => false end = true).
    { destruct Hd as [-> | ->]; split; try reflexivity; [apply Reqb_false; lra|now apply Reqb_true]. }
    destruct E as [-> ->].
    replace (Nat.leb 5 (g_nlat g)) with false by (symmetry; apply Nat.leb_gt; lia). now destruct f.
Qed.
Lemma out_shape g f a r : derivative_meridional g f a = Ok r ->
  match f, r with
  | A1 v, A1 d => length d = length v
  | A2 m, A2 d => forall nr nc, (0 < nr)%nat -> shaped nr nc m -> shaped nr nc d
  | _, _ => False
  end.
Proof.
  unfold derivative_meridional, passert. destruct f as [v|m|]; [| |discriminate].
  - destruct (match a with ONum x => Reqb x 2 | _ => false end).
    + destruct (Nat.leb 3 _); [|discriminate]. intros E. apply Ok_inj in E. subst r. apply tab_length.
    + destruct (match a with ONum x => Reqb x 4 | ONone => true | OOther => false end); [|discriminate].
      destruct (Nat.leb 5 _); [|discriminate]. destruct (Nat.ltb _ 5); [discriminate|].
      intros E. apply Ok_inj in E. subst r. apply tab_length.
  - assert (G : forall nr nc h, (0 < nr)%nat -> shaped nr nc m -> shaped nr nc (mat_of (length m) (ncols m) h)).
    { intros nr nc h H0 H. rewrite (shaped_ncols nr nc) by auto. rewrite (proj1 H). apply shaped_mat_of. }
    destruct (match a with ONum x => Reqb x 2 | _ => false end).
    + destruct (Nat.leb 3 _); [|discriminate]. destruct (Nat.ltb _ 3); [discriminate|].
      intros E. apply Ok_inj in E. subst r. intros; now apply G.
    + destruct (match a with ONum x => Reqb x 4 | ONone => true | OOther => false end); [|discriminate].
      destruct (Nat.leb 5 _); [|discriminate]. destruct (Nat.ltb _ 5); [discriminate|].
      intros E. apply Ok_inj in E. subst r. intros; now apply G.
Qed.

Lemma smooth_example : smooth_bounded 4 sin 1 /\ Derive sin (PI / 3) = 1 / 2.
Proof.
  assert (D : forall x, is_derive sin x (cos x)) by (intros; auto_derive; [auto|ring]).
  assert (D' : forall x, is_derive cos x (- sin x)) by (intros; auto_derive; [auto|ring]).
  assert (E1 : forall x, Derive_n sin 1 x = cos x) by (intros; now apply is_derive_unique).
  assert (E2 : forall x, Derive_n sin 2 x = - sin x).
  { intros x. change (Derive_n sin 2 x) with (Derive (Derive_n sin 1) x).
    rewrite (Derive_ext _ cos) by auto. now apply is_derive_unique. }
  assert (E3 : forall x, Derive_n sin 3 x = - cos x).
  { intros x. change (Derive_n sin 3 x) with (Derive (Derive_n sin 2) x).
    rewrite (Derive_ext _ (fun t => - sin t)) by auto. apply is_derive_unique. auto_derive; [auto|ring]. }
  assert (E4 : forall x, Derive_n sin 4 x = sin x).
  { intros x. change (Derive_n sin 4 x) with (Derive (Derive_n sin 3) x).
    rewrite (Derive_ext _ (fun t => - cos t)) by auto. apply is_derive_unique. auto_derive; [auto|ring]. }
  assert (E5 : forall x, Derive_n sin 5 x = cos x).
  { intros x. change (Derive_n sin 5 x) with (Derive (Derive_n sin 4) x).
    rewrite (Derive_ext _ sin) by auto. now apply is_derive_unique. }
  split; [|rewrite (is_derive_unique _ _ _ (D _)); apply cos_PI3].
  split.
  - intros t k Hk. destruct k as [|[|[|[|[|[|k]]]]]]; [exact I| | | | | |lia].
    + eexists; apply D.
    + apply (ex_derive_ext cos); [intros; now rewrite <- E1|]. eexists; apply D'.
    + apply (ex_derive_ext (fun t => - sin t)); [intros; now rewrite <- E2|]. auto_derive; auto.
    + apply (ex_derive_ext (fun t => - cos t)); [intros; now rewrite <- E3|]. auto_derive; auto.
    + apply (ex_derive_ext sin); [intros; now rewrite <- E4|]. eexists; apply D.
  - intros t Ht. rewrite E5. apply Rabs_le. pose proof (COS_bound t). lra.
Qed.

Lemma accuracy_refuted : exists g d, mk_grid 7 1 1 None = Ok g
  /\ smooth_bounded 4 (fun t => t) 0
  /\ derivative_meridional g (A1 (map (fun t => t) (g_phi g))) ONone = Ok (A1 d)
  /\ forall i, (0 < i < g_nlat g - 1)%nat ->
       ~ exists C, Rabs (nth i d 0 - Derive (fun t => t) (nth i (g_phi g) 0)) <= C * Rabs (g_dphi g) ^ 4 * 0.
Proof.
  destruct poly_refuted as [g [d [Hg [Hd [Hv HD]]]]]. exists g, d. split; [exact Hg|]. split; [|split].
  - assert (E1 : forall x, Derive_n (fun t => t) 1 x = 1) by (intros; now apply is_derive_unique).
    assert (EK : forall k x, Derive_n (fun t => t) (S (S k)) x = 0).
    { induction k as [|k IH]; intros x.
      - change (Derive (Derive_n (fun t => t) 1) x = 0). rewrite (Derive_ext _ (fun _ => 1)) by auto. apply Derive_const.
      - change (Derive (Derive_n (fun t => t) (S (S k))) x = 0). rewrite (Derive_ext _ (fun _ => 0)) by auto. apply Derive_const. }
    split.
    + intros t k _. destruct k as [|[|[|k]]]; [exact I| | |].
      * eexists; apply HD.
      * apply (ex_derive_ext (fun _ => 1)); [intros; symmetry; apply E1|]. apply ex_derive_const.
      * apply (ex_derive_ext (fun _ => 0)); [intros; symmetry; apply EK|]. apply ex_derive_const.
    + intros t _. rewrite (EK 3%nat), Rabs_R0. lra.
  - now rewrite map_id.
  - intros i Hi [C HC]. rewrite (Hv i Hi), (is_derive_unique _ _ _ (HD _)) in HC.
    rewrite Rmult_0_r in HC. rewrite Rabs_right in HC; lra.
Qed.
