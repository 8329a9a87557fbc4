(** Proofs about forcing terms (C39-C46). *)
From Coq Require Export String.
From Verif Require Import Base Model_Grid Model_Time Model_Spectral Model_State Model_Run Model_RHS.
From Verif Require Import Spec_Grid Spec_Spectral Spec_State Spec_Instance Spec_Run Spec_RHS.
From Verif Require Import Proofs_Base Proofs_Grid Proofs_Spectral Proofs_Instance Proofs_State Proofs_Run Proofs_Step.
From Coquelicot Require Import Coquelicot.
From Coq Require Import List Lia Lra Sorted.
Open Scope R_scope.

(** ** Arithmetic of values *)
Lemma same_shape_true nr nc (a b : mat) : shaped nr nc a -> shaped nr nc b -> same_shape a b = true.
Proof.
  intros [La Fa] [Lb Fb]. unfold same_shape. apply andb_true_iff. split; [apply Nat.eqb_eq; congruence|].
  apply forallb_forall. intros [x y] Hin. apply Nat.eqb_eq. cbn [fst snd].
  rewrite Forall_forall in Fa, Fb. rewrite (Fa x (in_combine_l _ _ _ _ Hin)), (Fb y (in_combine_r _ _ _ _ Hin)). reflexivity.
Qed.
Lemma fbin_fits op nr nc a b : fits nr nc a -> fits nr nc b ->
  exists v, fbin op a b = Ok v /\ fits nr nc v
  /\ forall i j, (i < nr)%nat -> (j < nc)%nat -> fat v i j = op (fat a i j) (fat b i j).
Proof.
  intros Ha Hb. destruct a as [x|m], b as [y|n]; cbn [fbin fits] in *.
  - eexists. split; [reflexivity|]. split; [exact I|]. reflexivity.
  - eexists. split; [reflexivity|]. split; [now apply shaped_mmap|]. intros i j Hi Hj. cbn [fat]. now apply (mget_mmap nr nc).
  - eexists. split; [reflexivity|]. split; [now apply shaped_mmap|]. intros i j Hi Hj. cbn [fat]. now apply (mget_mmap nr nc (fun x => op x y)).
  - rewrite (same_shape_true nr nc) by auto. eexists. split; [reflexivity|]. split; [now apply shaped_map2|].
    intros i j Hi Hj. cbn [fat]. now apply (mget_map2 nr nc).
Qed.

(** ** C39 *)
Lemma build_rhs {K} (e : rhs_expr K) : (forall l, In l (leaves e) -> is_rhs l = true) -> exists o, build e = Ok o /\ is_rhs o = true.
Proof.
  induction e as [o|a IHa b IHb|a IHa b IHb]; cbn [leaves build]; intros H.
  - exists o. split; [reflexivity|apply H; now left].
  - destruct IHa as [x [-> Hx]]; [intros; apply H, in_or_app; auto|]. destruct IHb as [y [-> Hy]]; [intros; apply H, in_or_app; auto|].
    cbn [bind]. unfold op_add. rewrite Hx. cbn. eauto.
  - destruct IHa as [x [-> Hx]]; [intros; apply H, in_or_app; auto|]. destruct IHb as [y [-> Hy]]; [intros; apply H, in_or_app; auto|].
    cbn [bind]. unfold op_mul. rewrite Hx. cbn. eauto.
Qed.
(** what an operator builds from two objects that are not both numbers *)
Lemma op_add_call {K} (a b o : obj K) : op_add a b = Ok o -> (o = PSum a b) \/ exists x y, a = PNum x /\ b = PNum y /\ o = PNum (x + y).
Proof. unfold op_add. destruct (is_rhs a || is_rhs b); intros E; [left; congruence|]. destruct a, b; try discriminate. right. do 2 eexists. split; [reflexivity|]. split; [reflexivity|congruence]. Qed.
Lemma op_mul_call {K} (a b o : obj K) : op_mul a b = Ok o -> (o = PProd a b) \/ exists x y, a = PNum x /\ b = PNum y /\ o = PNum (x * y).
Proof. unfold op_mul. destruct (is_rhs a || is_rhs b); intros E; [left; congruence|]. destruct a, b; try discriminate. right. do 2 eexists. split; [reflexivity|]. split; [reflexivity|congruence]. Qed.

Lemma expr_pointwise {K} T (s : state K) nr nc (vals : obj K -> fval) (e : rhs_expr K) : forall o, build e = Ok o ->
  (forall l, In l (leaves e) -> call T l s = Ok (vals l) /\ fits nr nc (vals l)) ->
  exists v, call T o s = Ok v /\ fits nr nc v
  /\ forall i j, (i < nr)%nat -> (j < nc)%nat -> fat v i j = expr_value (fun l => fat (vals l) i j) e.
Proof.
  induction e as [o|a IHa b IHb|a IHa b IHb]; cbn [leaves build expr_value]; intros o' E H.
  - apply Ok_inj in E. subst o'. destruct (H o) as [E F]; [now left|]. exists (vals o). auto.
  - destruct (build a) as [x|] eqn:Ea; [|discriminate]. destruct (build b) as [y|] eqn:Eb; [|discriminate]. cbn [bind] in E.
    destruct (IHa x eq_refl) as [v [Ev [Fv Hv]]]; [intros; apply H, in_or_app; auto|].
    destruct (IHb y eq_refl) as [w [Ew [Fw Hw]]]; [intros; apply H, in_or_app; auto|].
    destruct (op_add_call _ _ _ E) as [-> | [x' [y' [-> _]]]]; [|discriminate].
    destruct (fbin_fits Rplus nr nc v w Fv Fw) as [z [Ez [Fz Hz]]]. exists z. cbn [call]. rewrite Ev, Ew. cbn [bind]. split; [exact Ez|].
    split; [exact Fz|]. intros i j Hi Hj. rewrite Hz, Hv, Hw by auto. reflexivity.
  - destruct (build a) as [x|] eqn:Ea; [|discriminate]. destruct (build b) as [y|] eqn:Eb; [|discriminate]. cbn [bind] in E.
    destruct (IHa x eq_refl) as [v [Ev [Fv Hv]]]; [intros; apply H, in_or_app; auto|].
    destruct (IHb y eq_refl) as [w [Ew [Fw Hw]]]; [intros; apply H, in_or_app; auto|].
    destruct (op_mul_call _ _ _ E) as [-> | [x' [y' [-> _]]]]; [|discriminate].
    destruct (fbin_fits Rmult nr nc v w Fv Fw) as [z [Ez [Fz Hz]]]. exists z. cbn [call]. rewrite Ev, Ew. cbn [bind]. split; [exact Ez|].
    split; [exact Fz|]. intros i j Hi Hj. rewrite Hz, Hv, Hw by auto. reflexivity.
Qed.
Lemma number_operand {K} T (t : obj K) c : is_rhs t = true -> exists a b p q,
  op_add t (PNum c) = Ok a /\ op_add (PNum c) t = Ok b /\ op_mul t (PNum c) = Ok p /\ op_mul (PNum c) t = Ok q
  /\ forall s, call T b s = Err TypeError /\ call T q s = Err TypeError
     /\ forall v, call T t s = Ok v -> call T a s = Err TypeError /\ call T p s = Err TypeError.
Proof.
  intros H. unfold op_add, op_mul. rewrite H. cbn. do 4 eexists. do 4 (split; [reflexivity|]).
  intros s. cbn. split; [reflexivity|]. split; [reflexivity|]. intros v ->. cbn. auto.
Qed.

(** ** C40 *)
Lemma switch_R T g x (tend t : R) : call T (PSwitch (@VNum numR tend)) (mkState g (@VNum numR t) x) = Ok (FNum (if Rleb t tend then 1 else 0)).
Proof. reflexivity. Qed.
Lemma switch_sequence {A} (le : A -> A -> Prop) (on : A -> bool) :
  (forall x y, le x y -> on y = true -> on x = true) ->
  forall ts, StronglySorted le ts -> exists a, (a <= length ts)%nat
  /\ map on ts = repeat true a ++ repeat false (length ts - a).
Proof.
  intros Hmono. induction ts as [|t ts IH]; intros HS.
  - exists 0%nat. split; [lia|reflexivity].
  - apply StronglySorted_inv in HS. destruct HS as [HS HF]. destruct (IH HS) as [a [La E]]. destruct (on t) eqn:Et.
    + exists (S a). cbn [length]. split; [lia|]. cbn [map repeat app]. rewrite Et, E. reflexivity.
    + exists 0%nat. split; [lia|]. cbn [map repeat app length Nat.sub]. rewrite Et. f_equal.
      clear IH E La HS. induction HF as [|y l Hy HF IH]; [reflexivity|]. cbn [map repeat length]. f_equal; [|exact IH].
      destruct (on y) eqn:Ey; [|reflexivity]. rewrite (Hmono _ _ Hy Ey) in Et. discriminate.
Qed.

(** ** Interpolation *)
Lemma count_le x : forall l, strictly_increasing l ->
  (forall j, (j < length (filter (fun a => Rleb a x) l))%nat -> nth j l 0 <= x)
  /\ (forall j, (length (filter (fun a => Rleb a x) l) <= j < length l)%nat -> x < nth j l 0).
Proof.
  induction l as [|a l IH]; intros HI; [split; cbn; intros; lia|].
  assert (HI' : strictly_increasing l).
  { intros i j Hij Hj. apply (HI (S i) (S j)); cbn; lia. }
  destruct (IH HI') as [A B]. cbn [filter]. destruct (Rleb_spec a x) as [L|L]; cbn [length].
  - split.
    + intros [|j] Hj; [exact L|]. apply A. lia.
    + intros [|j] Hj; [lia|]. apply B. lia.
  - assert (E : filter (fun a => Rleb a x) l = nil).
    { assert (Q : forall y, In y l -> Rleb y x = false).
      { intros y Hy. destruct (In_nth l y 0 Hy) as [j [Hj <-]]. apply Rleb_false.
        pose proof (HI 0%nat (S j) ltac:(lia) ltac:(cbn; lia)) as Q. cbn in Q. lra. }
      clear -Q. induction l as [|b l IH]; [reflexivity|]. cbn. rewrite Q by now left. apply IH. intros; apply Q; now right. }
    rewrite E. cbn [length]. split; [intros; lia|]. intros [|j] Hj; [exact L|].
    pose proof (HI 0%nat (S j) ltac:(lia) ltac:(cbn; lia)) as Q. cbn in Q. cbn. lra.
Qed.
Section Interp.
Variables (xp fp : vec).
Hypothesis (HI : strictly_increasing xp) (Hn : (0 < length xp)%nat).
Let n := length xp.
Lemma interp_left x : x < nth 0 xp 0 -> np_interp x xp fp = nth 0 fp 0.
Proof. intros H. unfold np_interp. apply Rltb_true in H. now rewrite H. Qed.
Lemma xp_first_last : nth 0 xp 0 <= nth (n - 1) xp 0.
Proof. destruct (Nat.eq_dec n 1) as [E|E]; [rewrite E; apply Rle_refl|]. left. apply HI; fold n; lia. Qed.
Lemma interp_right x : nth (n - 1) xp 0 <= x -> np_interp x xp fp = nth (n - 1) fp 0.
Proof.
  intros H. unfold np_interp. pose proof xp_first_last. fold n.
  replace (Rltb x (nth 0 xp 0)) with false by (symmetry; apply Rltb_false; lra).
  replace (Rleb (nth (n - 1) xp 0) x) with true by (symmetry; now apply Rleb_true). reflexivity.
Qed.
Lemma interp_inner x : nth 0 xp 0 <= x < nth (n - 1) xp 0 ->
  exists j, (j + 1 < n)%nat /\ nth j xp 0 <= x < nth (j + 1) xp 0
  /\ np_interp x xp fp = nth j fp 0 + (nth (j + 1) fp 0 - nth j fp 0) / (nth (j + 1) xp 0 - nth j xp 0) * (x - nth j xp 0).
Proof.
  intros [H1 H2]. unfold np_interp. fold n.
  replace (Rltb x (nth 0 xp 0)) with false by (symmetry; apply Rltb_false; lra).
  replace (Rleb (nth (n - 1) xp 0) x) with false by (symmetry; now apply Rleb_false).
  destruct (count_le x xp HI) as [A B]. set (c := length (filter (fun a => Rleb a x) xp)) in *.
  assert (C0 : (0 < c)%nat). { destruct (Nat.eq_dec c 0) as [E|E]; [|lia]. specialize (B 0%nat ltac:(fold n; lia)). lra. }
  assert (C1 : (c < n)%nat). { destruct (le_lt_dec n c) as [E|E]; [|lia]. specialize (A (n - 1)%nat ltac:(lia)). lra. }
  exists (c - 1)%nat. split; [lia|]. split; [|reflexivity]. split; [apply A; lia|]. apply B. fold n. lia.
Qed.
Lemma interp_index j k : (j + 1 < n)%nat -> (k < n)%nat -> nth j xp 0 <= nth k xp 0 < nth (j + 1) xp 0 -> j = k.
Proof.
  intros Hj Hk [A B]. destruct (lt_eq_lt_dec j k) as [[L|E]|L]; [|exact E|].
  - assert (E : (j + 1 <= k)%nat) by lia. destruct (Nat.eq_dec (j + 1) k) as [E'|E']; [rewrite <- E' in B; lra|].
    pose proof (HI (j + 1)%nat k ltac:(lia) ltac:(fold n; lia)). lra.
  - pose proof (HI k j L ltac:(fold n; lia)). lra.
Qed.
Lemma interp_node k : (k < n)%nat -> np_interp (nth k xp 0) xp fp = nth k fp 0.
Proof.
  intros Hk. destruct (Nat.eq_dec k (n - 1)) as [E|E].
  - subst k. apply interp_right. apply Rle_refl.
  - pose proof (HI k (n - 1)%nat ltac:(lia) ltac:(fold n; lia)) as B.
    assert (A : nth 0 xp 0 <= nth k xp 0). { destruct k; [apply Rle_refl|]. left. apply HI; fold n; lia. }
    destruct (interp_inner (nth k xp 0) (conj A B)) as [j [Hj [Hx ->]]].
    rewrite (interp_index j k Hj Hk Hx). unfold Rminus at 3. rewrite Rplus_opp_r. ring.
Qed.
Lemma interp_bounds lo hi x : (forall i, (i < n)%nat -> lo <= nth i fp 0 <= hi) -> lo <= np_interp x xp fp <= hi.
Proof.
  intros H. destruct (Rlt_le_dec x (nth 0 xp 0)) as [L|L]; [rewrite interp_left by auto; apply H; lia|].
  destruct (Rlt_le_dec x (nth (n - 1) xp 0)) as [L'|L']; [|rewrite interp_right by auto; apply H; lia].
  destruct (interp_inner x (conj L L')) as [j [Hj [Hx ->]]].
  set (a := nth j xp 0) in *. set (b := nth (j + 1) xp 0) in *.
  pose proof (H j ltac:(lia)) as P. pose proof (H (j + 1)%nat Hj) as Q.
  set (p := nth j fp 0) in *. set (q := nth (j + 1) fp 0) in *.
  set (w := (x - a) / (b - a)).
  assert (Hw : 0 <= w <= 1).
  { unfold w. split; [apply Rdiv_le_0_compat; lra|]. apply Rmult_le_reg_r with (b - a); [lra|]. unfold Rdiv. rewrite Rmult_assoc, Rinv_l by lra. lra. }
  replace (p + (q - p) / (b - a) * (x - a)) with ((1 - w) * p + w * q) by (unfold w; field; lra). nra.
Qed.
End Interp.
Lemma interp_linear xp fp x k : strictly_increasing xp -> (k + 1 < length xp)%nat -> nth k xp 0 <= x < nth (k + 1) xp 0 ->
  np_interp x xp fp = nth k fp 0 + (nth (k + 1) fp 0 - nth k fp 0) / (nth (k + 1) xp 0 - nth k xp 0) * (x - nth k xp 0).
Proof.
  intros HI Hk [A B].
  assert (A0 : nth 0 xp 0 <= x). { destruct k; [exact A|]. pose proof (HI 0%nat (S k) ltac:(lia) ltac:(lia)). lra. }
  assert (B0 : x < nth (length xp - 1) xp 0).
  { destruct (Nat.eq_dec (k + 1) (length xp - 1)) as [<-|E]; [exact B|]. pose proof (HI (k + 1)%nat (length xp - 1)%nat ltac:(lia) ltac:(lia)). lra. }
  destruct (interp_inner xp fp HI ltac:(lia) x (conj A0 B0)) as [j [Hj [[C D] ->]]].
  assert (j = k); [|subst; reflexivity].
  destruct (lt_eq_lt_dec j k) as [[L|E]|L]; [|exact E|]; exfalso.
  - destruct (Nat.eq_dec (j + 1) k) as [E|E]; [subst k; lra|]. pose proof (HI (j + 1)%nat k ltac:(lia) ltac:(lia)). lra.
  - destruct (Nat.eq_dec (k + 1) j) as [E|E]; [subst j; lra|]. pose proof (HI (k + 1)%nat j ltac:(lia) ltac:(lia)). lra.
Qed.
Lemma cos_period_Z x n : cos (x + 2 * IZR n * PI) = cos x.
Proof.
  destruct (Z_le_gt_dec 0 n) as [L|L].
  - rewrite <- (Z2Nat.id n L), <- INR_IZR_INZ. apply cos_period.
  - rewrite <- (cos_period (x + 2 * IZR n * PI) (Z.to_nat (- n))). f_equal. rewrite INR_IZR_INZ, Z2Nat.id by lia. rewrite opp_IZR. ring.
Qed.
