(** Lemmas on the stationary wavenumber and the waveguides. *)
From Coq Require Export String.
From Verif Require Import Base Model_Grid Spec_Grid Spec_Deriv Proofs_Base Proofs_Grid Proofs_Region Proofs_Quad Proofs_Deriv Proofs_Falwa Model_Ks Spec_Ks Model_Region.
From Coq Require Import List Lia Lra.
Open Scope R_scope.

(** ** Variants *)
Lemma csqrt_variants a : variants a (csqrt_real a) (real_minus_imag (csqrt_real a)).
Proof.
  destruct a as [x| | |]; unfold real_minus_imag, csqrt_real.
  - destruct (Rltb x 0) eqn:E; cbn [fst snd esub eopp eadd].
    + apply Rltb_true in E. replace (0 + - sqrt (- x)) with (- sqrt (- x)) by ring.
      apply var_neg; [lra|apply sqrt_lt_R0; lra|apply sqrt_sqrt; lra].
    + apply Rltb_false in E. unfold esub. cbn [eopp eadd]. replace (sqrt x + - 0) with (sqrt x) by ring.
      apply var_pos; [lra|apply sqrt_pos|apply sqrt_sqrt; lra].
  - apply var_pinf.
  - cbn. apply var_ninf.
  - cbn. apply var_nan.
Qed.

Lemma stands_for_real z x : stands_for z x -> real_minus_imag z = x.
Proof.
  intros [x' H|y|]; unfold real_minus_imag, esub; cbn [fst snd eopp eadd]; try reflexivity.
  - destruct x'; cbn [eadd]; try reflexivity. f_equal. ring.
  - f_equal. ring.
Qed.
Lemma stands_for_nan z x : stands_for z x -> x <> NaN.
Proof. intros [x' H|y|]; congruence. Qed.
Lemma stands_for_map l m : Forall2 stands_for l m -> map real_minus_imag l = m.
Proof. induction 1; cbn [map]; [reflexivity|]. f_equal; auto. now apply stands_for_real. Qed.
Lemma variants_stand a z r : variants a z r -> a <> NaN -> stands_for z r /\ stands_for (r, Fin 0) r.
Proof.
  intros [x b H1 H2 H3|x b H1 H2 H3| | |] H; try congruence; split; try (apply sf_real; congruence).
  - apply sf_imag.
  - apply sf_imag_inf.
Qed.

Lemma Forall2_nth_iff {A B} (P : A -> B -> Prop) d d' : forall l m,
  Forall2 P l m <-> length l = length m /\ forall i, (i < length l)%nat -> P (nth i l d) (nth i m d').
Proof.
  induction l as [|a l IH]; destruct m as [|b m]; split.
  - intros _. split; [reflexivity|]. cbn. intros; lia.
  - constructor.
  - intros H. inversion H.
  - intros [H _]. discriminate.
  - intros H. inversion H.
  - intros [H _]. discriminate.
  - intros H. inversion H; subst. apply IH in H5. destruct H5 as [H1 H2]. split; [cbn; lia|].
    intros [|i] Hi; [auto|]. cbn in *. apply H2. lia.
  - intros [H1 H2]. constructor; [apply (H2 0%nat); cbn; lia|]. apply IH. split; [cbn in H1; lia|].
    intros i Hi. apply (H2 (S i)). cbn. lia.
Qed.

(** ** Comparisons *)
Lemma eltb_below k a : eltb a (Fin k) = true <-> below k a.
Proof. destruct a; cbn [eltb below]; try (split; intros; (easy || tauto)). apply Rltb_true. Qed.
Lemma eltb_above k a : eltb (Fin k) a = true <-> above k a.
Proof. destruct a; cbn [eltb above]; try (split; intros; (easy || tauto)). apply Rltb_true. Qed.
Lemma eleb_above k a : a <> NaN -> eleb (Fin k) a = true <-> ~ below k a.
Proof.
  destruct a; cbn [eleb below]; intros; try (split; intros; (easy || tauto)).
  rewrite Rleb_true. lra.
Qed.

(** ** The loop *)
Section Loop.
Variables (res rs om : R) (nt : option Z) (g : grid).
Hypothesis Hg : mk_grid res rs om nt = Ok g.
Notation n := (g_nlat g).
Notation lat i := (nth i (g_lat g) 0).

Lemma lat_step i : (S i < n)%nat -> 0 < res <= lat i - lat (S i).
Proof.
  intros Hi. pose proof (mk_grid_facts _ _ _ _ _ Hg) as F.
  pose proof (eta_pos _ _ _ _ _ Hg) as E. unfold eta in E.
  rewrite !lat_nth by lia. rewrite S_INR.
  assert (N : 0 < INR (n - 1)) by (apply lt_0_INR; lia).
  destruct E as [E1 E2].
  assert (R1 : 0 < res). { destruct F; auto. }
  split; [auto|].
  match goal with |- _ <= ?x => replace x with (180 / INR (n - 1)) by (field; lra) end.
  apply Rmult_le_reg_r with (INR (n - 1) / 180); [lra|].
  replace (180 / INR (n - 1) * (INR (n - 1) / 180)) with 1 by (field; lra). lra.
Qed.

(** one segment; [y], [y'] neighbouring latitudes *)
Lemma g_dlat_res : g_dlat g = - res.
Proof. unfold g_dlat. now rewrite (gf_res _ _ _ _ (mk_grid_facts _ _ _ _ _ Hg)). Qed.

Lemma frac_range a b : 0 <= a -> 0 < b -> a <= b -> 0 <= a / b <= 1.
Proof.
  intros. split.
  - apply Rmult_le_pos; [lra|]. left. now apply Rinv_0_lt_compat.
  - apply Rmult_le_reg_r with b; [lra|]. replace (a / b * b) with a by (field; lra). lra.
Qed.
Lemma frac_pos a b : 0 < a -> 0 < b -> 0 < a / b.
Proof. intros. apply Rmult_lt_0_compat; [lra|]. now apply Rinv_0_lt_compat. Qed.
Lemma frac_lt1 a b : 0 < b -> a < b -> a / b < 1.
Proof. intros. apply Rmult_lt_reg_r with b; [lra|]. replace (a / b * b) with a by (field; lra). lra. Qed.

Lemma cross_fin k y x x' : x' <> x ->
  wg_cross g (Fin k) y (Fin x) (Fin x') = Fin (y - res * ((k - x) / (x' - x))).
Proof.
  intros H. unfold wg_cross, esub. cbn [eopp eadd emul ediv].
  replace (Reqb (x' + - x) 0) with false by (symmetry; apply Reqb_false; lra).
  cbn [eopp eadd]. f_equal. rewrite g_dlat_res. field. lra.
Qed.

Lemma seg_end k y y' a a' : 0 < res <= y - y' -> a <> NaN -> ~ below k a -> below k a' ->
  exists e, wg_end g (Fin k) y a a' = Fin e /\ y' <= e <= y
    /\ ((exists x, a = Fin x) -> y' < e)
    /\ (res = y - y' -> crossing k e y a y' a').
Proof.
  intros D Na Ha Ha'. unfold wg_end.
  destruct a as [x| | |]; cbn [is_inf below] in *; try tauto; try congruence.
  - destruct a' as [x'| | |]; cbn [below] in Ha'; try tauto.
    + assert (T : 0 <= (k - x) / (x' - x) < 1).
      { replace ((k - x) / (x' - x)) with ((x - k) / (x - x')) by (field; lra).
        split; [apply frac_range; lra|apply frac_lt1; lra]. }
      rewrite cross_fin by lra. eexists. split; [reflexivity|].
      assert (0 <= res * ((k - x) / (x' - x)) < res) by (split; nra).
      split; [lra|]. split; [intros; lra|]. intros E. unfold crossing, on_segment.
      exists ((k - x) / (x' - x)). split; [lra|]. split; [rewrite E; ring|field; lra].
    + unfold wg_cross, esub. cbn [eopp eadd emul ediv]. exists y. split; [f_equal; ring|].
      split; [lra|]. split; [intros; lra|]. intros _. reflexivity.
  - rewrite g_dlat_res. exists (y + - res). split; [reflexivity|]. split; [lra|].
    split; [intros [x E]; discriminate|]. intros E. unfold crossing.
    destruct a'; cbn [below] in Ha'; try tauto; lra.
Qed.

Lemma seg_start k y y' a a' : 0 < res <= y - y' -> a <> NaN -> ~ above k a -> above k a' ->
  (~ (a = NInf /\ exists x, a' = Fin x) ->
    exists s, wg_start g (Fin k) y a a' = Fin s /\ y' <= s <= y
    /\ (below k a -> (exists x, a = Fin x) -> (exists x, a' = Fin x) -> s < y)
    /\ (res = y - y' -> crossing k s y a y' a'))
  /\ (a = NInf -> (exists x, a' = Fin x) -> wg_start g (Fin k) y a a' = NaN).
Proof.
  intros D Na Ha Ha'. unfold wg_start. split.
  - intros J. destruct a' as [x'| | |]; cbn [is_inf above] in *; try tauto.
    + destruct a as [x| | |]; cbn [above] in *; try tauto; try congruence.
      * assert (T : 0 <= (k - x) / (x' - x) < 1) by (split; [apply frac_range; lra|apply frac_lt1; lra]).
        rewrite cross_fin by lra. eexists. split; [reflexivity|].
        assert (0 <= res * ((k - x) / (x' - x)) < res) by (split; nra).
        split; [lra|]. split.
        -- intros B _ _. cbn [below] in B. assert (0 < (k - x) / (x' - x)) by (apply frac_pos; lra).
           assert (0 < res * ((k - x) / (x' - x))) by (apply Rmult_lt_0_compat; lra). lra.
        -- intros E. unfold crossing, on_segment.
           exists ((k - x) / (x' - x)). split; [lra|]. split; [rewrite E; ring|field; lra].
      * exfalso. apply J. split; [reflexivity|eauto].
    + exists y. split; [reflexivity|]. split; [lra|].
      split; [intros _ _ [x E]; discriminate|]. intros _. unfold crossing.
      destruct a; cbn [above] in *; try tauto; try congruence; auto.
  - intros -> [x ->]. cbn [is_inf]. unfold wg_cross, esub. cbn [eopp eadd emul]. rewrite g_dlat_res.
    unfold signed_inf.
    replace (Rltb 0 (- res)) with false by (symmetry; apply Rltb_false; lra).
    replace (Rltb (- res) 0) with true by (symmetry; apply Rltb_true; lra). reflexivity.
Qed.

Lemma nts_mono l : forall t t', t <= t' -> north_to_south t l -> north_to_south t' l.
Proof. destruct l as [|[s e] l]; cbn [north_to_south]; [auto|]. intros t t' H [H1 H2]. split; [lra|auto]. Qed.
Lemma nts_in l : forall t s e, north_to_south t l -> In (s, e) l -> s <= t /\ e <= s /\ -90 <= e.
Proof.
  induction l as [|[s' e'] l IH]; cbn [north_to_south In]; [tauto|].
  intros t s e [H1 [H2 [H3 H4]]] [E|E].
  - injection E as -> ->. auto.
  - destruct (IH _ _ _ H4 E) as [A B]. split; [lra|auto].
Qed.

Lemma lat_ge i : (i < n)%nat -> -90 <= lat i <= 90.
Proof. intros Hi. apply (lat_poles g). apply nth_In. now rewrite lat_length. Qed.
Lemma lat_mono j : forall i, (i <= j)%nat -> (j < n)%nat -> lat j <= lat i.
Proof.
  induction j as [|j IH]; intros i Hi Hj; [replace i with 0%nat by lia; lra|].
  destruct (Nat.eq_dec i (S j)) as [->|Hne]; [lra|]. pose proof (lat_step j Hj).
  specialize (IH i ltac:(lia) ltac:(lia)). lra.
Qed.

Variable ks : list ext.
Variable k : R.
Hypothesis Hl : length ks = n.
Hypothesis Hn : not_nan ks.
Notation kk i := (nth i ks NaN).

Lemma kk_nan i : (i < n)%nat -> kk i <> NaN.
Proof. intros Hi. unfold not_nan in Hn. rewrite Forall_forall in Hn. apply Hn, nth_In. lia. Qed.

Definition seg (i : nat) : R * ext * ext := (lat i, kk i, kk (S i)).

(** where the boundaries come from *)
Definition start_ok (s : R) : Prop :=
  (s = lat 0 /\ ~ below k (kk 0))
  \/ exists i, (S i < n)%nat /\ ~ above k (kk i) /\ above k (kk (S i)) /\ lat (S i) <= s <= lat i
       /\ wg_start g (Fin k) (lat i) (kk i) (kk (S i)) = Fin s.
Definition end_ok (e : R) : Prop :=
  (e = lat (n - 1) /\ ~ below k (kk (n - 1)))
  \/ exists i, (S i < n)%nat /\ ~ below k (kk i) /\ below k (kk (S i)) /\ lat (S i) <= e <= lat i
       /\ wg_end g (Fin k) (lat i) (kk i) (kk (S i)) = Fin e.

Lemma loop_ok (J : ~ jumps k ks) : forall m i active s,
  (i + m = n - 1)%nat -> (i < n)%nat ->
  (active = true -> lat i <= s /\ ~ below k (kk i) /\ start_ok s) ->
  (active = false -> ~ above k (kk i)) ->
  exists L, wg_loop g (Fin k) (map seg (seq i m)) active (Fin s) = intervals L
    /\ north_to_south (if active then s else lat i) L
    /\ (active = true -> exists e L', L = (s, e) :: L' /\ e <= lat i)
    /\ (forall j, (i <= j < n)%nat -> above k (kk j) -> exists s' e', In (s', e') L /\ e' <= lat j <= s')
    /\ (forall j s' e', (i <= j < n)%nat -> below k (kk j) -> In (s', e') L -> ~ (e' < lat j < s'))
    /\ (all_finite ks -> (active = false -> below k (kk i) -> forall s' e', In (s', e') L -> s' < lat i)
        /\ forall j s' e', (i <= j < n)%nat -> below k (kk j) -> In (s', e') L -> ~ (e' <= lat j <= s'))
    /\ (forall s' e', In (s', e') L -> start_ok s' /\ end_ok e').
Proof.
  assert (Hlast : last (g_lat g) 0 = lat (n - 1)) by (rewrite last_nth', lat_length; reflexivity).
  induction m as [|m IH]; intros i active s Hm Hi HA HI.
  - assert (i = n - 1)%nat by lia. subst i. cbn [seq map wg_loop]. rewrite Hlast. destruct active.
    + destruct (HA eq_refl) as [A1 [A2 A3]]. exists [(s, lat (n - 1))]. split; [reflexivity|].
      cbn [north_to_south In]. pose proof (lat_ge (n - 1) Hi).
      split; [repeat split; lra|]. split; [intros _; do 2 eexists; split; [reflexivity|lra]|].
      split.
      { intros j Hj _. replace j with (n - 1)%nat by lia. do 2 eexists. split; [left; reflexivity|lra]. }
      split. { intros j s' e' Hj B. replace j with (n - 1)%nat in B by lia. tauto. }
      split. { intros _. split; [discriminate|]. intros j s' e' Hj B. replace j with (n - 1)%nat in B by lia. tauto. }
      intros s' e' [E|[]]. injection E as <- <-. split; [auto|]. left. auto.
    + exists nil. split; [reflexivity|]. cbn [north_to_south In]. split; [auto|]. split; [discriminate|].
      split. { intros j Hj A. replace j with (n - 1)%nat in A by lia. exfalso. now apply HI. }
      repeat split; tauto.
  - assert (HSi : (S i < n)%nat) by lia. pose proof (lat_step i HSi) as D.
    pose proof (kk_nan i Hi) as N1. pose proof (kk_nan (S i) HSi) as N2.
    cbn [seq map wg_loop]. unfold seg at 1. destruct active; cbn [andb negb].
    + destruct (HA eq_refl) as [A1 [A2 A3]]. clear HI HA.
      destruct (eltb (kk (S i)) (Fin k)) eqn:E.
      * (* the waveguide ends *)
        apply eltb_below in E.
        destruct (seg_end k (lat i) (lat (S i)) (kk i) (kk (S i)) D N1 A2 E) as [e [Ee [Re [Fe _]]]].
        rewrite Ee.
        destruct (IH (S i) false s) as [L [EL [NL [_ [CL [XL [FL BL]]]]]]]; try lia; try discriminate.
        { intros _ A. destruct (kk (S i)); cbn in *; lra. }
        exists ((s, e) :: L). cbn [intervals map fst snd]. fold (intervals L).
        split; [now rewrite EL|]. cbn [north_to_south In].
        pose proof (lat_ge (S i) HSi).
        split; [repeat split; try lra; now apply (nts_mono L (lat (S i)))|].
        split; [intros _; do 2 eexists; split; [reflexivity|lra]|].
        split.
        { intros j Hj A. destruct (Nat.eq_dec j i) as [->|Hne].
          - exists s, e. split; [auto|lra].
          - destruct (CL j ltac:(lia) A) as [s' [e' [I1 I2]]]. exists s', e'. auto. }
        split.
        { intros j s' e' Hj B [I1|I1].
          - injection I1 as <- <-. destruct (Nat.eq_dec j i) as [->|Hne]; [tauto|].
            pose proof (lat_mono j (S i) ltac:(lia) ltac:(lia)). lra.
          - destruct (Nat.eq_dec j i) as [->|Hne]; [tauto|]. apply (XL j); auto; lia. }
        split.
        { intros AF. destruct (FL AF) as [F1 F2]. split; [discriminate|].
          assert (Fi : exists x, kk i = Fin x).
          { unfold all_finite in AF. rewrite Forall_forall in AF. apply AF, nth_In. lia. }
          intros j s' e' Hj B [I1|I1].
          - injection I1 as <- <-. destruct (Nat.eq_dec j i) as [->|Hne]; [tauto|].
            pose proof (lat_mono j (S i) ltac:(lia) ltac:(lia)). specialize (Fe Fi). lra.
          - destruct (Nat.eq_dec j i) as [->|Hne]; [tauto|]. apply (F2 j); auto; lia. }
        intros s' e' [I1|I1]; [|now apply BL]. injection I1 as <- <-. split; [auto|].
        right. exists i. repeat split; auto; lra.
      * (* it goes on *)
        assert (B2 : ~ below k (kk (S i))). { intros B. apply eltb_below in B. congruence. }
        destruct (IH (S i) true s) as [L [EL [NL [SL [CL [XL [FL BL]]]]]]]; try lia; try discriminate.
        { intros _. repeat split; auto. lra. }
        destruct (SL eq_refl) as [e [L' [EL' He]]].
        exists L. split; [auto|]. split; [auto|]. split; [intros _; exists e, L'; split; [auto|lra]|].
        split.
        { intros j Hj A. destruct (Nat.eq_dec j i) as [->|Hne]; [|apply CL; auto; lia].
          exists s, e. split; [rewrite EL'; now left|lra]. }
        split. { intros j s' e' Hj B. destruct (Nat.eq_dec j i) as [->|Hne]; [tauto|]. apply XL; auto; lia. }
        split; [|auto]. intros AF. destruct (FL AF) as [F1 F2]. split; [discriminate|].
        intros j s' e' Hj B. destruct (Nat.eq_dec j i) as [->|Hne]; [tauto|]. apply F2; auto; lia.
    + specialize (HI eq_refl). clear HA.
      destruct (eltb (Fin k) (kk (S i))) eqn:E.
      * (* a waveguide starts *)
        apply eltb_above in E.
        assert (NJ : ~ (kk i = NInf /\ exists x, kk (S i) = Fin x)).
        { intros [E1 [x E2]]. apply J. exists i, x. rewrite Hl. rewrite E2 in E. auto. }
        destruct (proj1 (seg_start k (lat i) (lat (S i)) (kk i) (kk (S i)) D N1 HI E) NJ) as [s1 [Es [Rs [Fs _]]]].
        rewrite Es.
        destruct (IH (S i) true s1) as [L [EL [NL [SL [CL [XL [FL BL]]]]]]]; try lia; try discriminate.
        { intros _. split; [lra|]. split; [intros B; destruct (kk (S i)); cbn in *; lra|].
          right. exists i. repeat split; auto; lra. }
        exists L. split; [auto|].
        split; [now apply (nts_mono L s1)|]. split; [discriminate|].
        split. { intros j Hj A. destruct (Nat.eq_dec j i) as [->|Hne]; [tauto|]. apply CL; auto; lia. }
        split.
        { intros j s' e' Hj B I1. destruct (Nat.eq_dec j i) as [->|Hne]; [|apply XL; auto; lia].
          destruct (nts_in _ _ _ _ NL I1). lra. }
        split; [|auto]. intros AF. destruct (FL AF) as [F1 F2].
        assert (Fi : forall i', (i' < n)%nat -> exists x, kk i' = Fin x).
        { intros i' Hi'. unfold all_finite in AF. rewrite Forall_forall in AF. apply AF, nth_In. lia. }
        split.
        { intros _ B s' e' I1. destruct (nts_in _ _ _ _ NL I1). specialize (Fs B (Fi i Hi) (Fi (S i) HSi)). lra. }
        intros j s' e' Hj B I1. destruct (Nat.eq_dec j i) as [->|Hne]; [|apply F2; auto; lia].
        destruct (nts_in _ _ _ _ NL I1). specialize (Fs B (Fi i Hi) (Fi (S i) HSi)). lra.
      * (* nothing starts *)
        assert (B2 : ~ above k (kk (S i))). { intros B. apply eltb_above in B. congruence. }
        destruct (IH (S i) false s) as [L [EL [NL [_ [CL [XL [FL BL]]]]]]]; try lia; try discriminate; [auto|].
        exists L. split; [auto|]. split; [apply (nts_mono L (lat (S i))); auto; lra|]. split; [discriminate|].
        split. { intros j Hj A. destruct (Nat.eq_dec j i) as [->|Hne]; [tauto|]. apply CL; auto; lia. }
        split.
        { intros j s' e' Hj B I1. destruct (Nat.eq_dec j i) as [->|Hne]; [|apply XL; auto; lia].
          destruct (nts_in _ _ _ _ NL I1). lra. }
        split; [|auto]. intros AF. destruct (FL AF) as [F1 F2].
        split. { intros _ B s' e' I1. destruct (nts_in _ _ _ _ NL I1). lra. }
        intros j s' e' Hj B I1. destruct (Nat.eq_dec j i) as [->|Hne]; [|apply F2; auto; lia].
        destruct (nts_in _ _ _ _ NL I1). lra.
Qed.

(** ** NaN boundaries *)
Lemma loop_head : forall segs st, exists e L, wg_loop g (Fin k) segs true st = (st, e) :: L.
Proof.
  induction segs as [|[[y a] a'] segs IH]; intros st; cbn [wg_loop andb negb]; [eauto|].
  destruct (eltb a' (Fin k)); [eauto|apply IH].
Qed.
Lemma loop_jump j x : (S j < n)%nat -> kk j = NInf -> kk (S j) = Fin x -> k < x ->
  forall m i active st, (i + m = n - 1)%nat -> (i <= j)%nat -> (below k (kk i) -> active = false) ->
  exists e, In (NaN, e) (wg_loop g (Fin k) (map seg (seq i m)) active st).
Proof.
  intros Hj E1 E2 Hx. induction m as [|m IH]; intros i active st Hm Hi HA; [lia|].
  cbn [seq map wg_loop]. unfold seg at 1. destruct (Nat.eq_dec i j) as [->|Hne].
  - rewrite HA by (rewrite E1; exact I). cbn [andb negb]. rewrite E1, E2.
    replace (eltb (Fin k) (Fin x)) with true by (symmetry; now apply eltb_above).
    rewrite (proj2 (seg_start k (lat j) (lat (S j)) NInf (Fin x) (lat_step j Hj) ltac:(discriminate) ltac:(cbn; tauto) Hx) eq_refl (ex_intro _ x eq_refl)).
    destruct (loop_head (map seg (seq (S j) m)) NaN) as [e [L ->]]. exists e. now left.
  - destruct active; cbn [andb negb].
    + destruct (eltb (kk (S i)) (Fin k)) eqn:E.
      * destruct (IH (S i) false st) as [e He]; try lia; auto. exists e. now right.
      * apply IH; try lia. intros B. apply eltb_below in B. congruence.
    + destruct (eltb (Fin k) (kk (S i))) eqn:E; apply IH; try lia; auto.
      intros B. apply eltb_above in E. destruct (kk (S i)); cbn in *; lra.
Qed.
Lemma loop_ends : forall m i active st, (i + m = n - 1)%nat -> (i < n)%nat ->
  (active = true -> ~ below k (kk i)) ->
  forall s e, In (s, e) (wg_loop g (Fin k) (map seg (seq i m)) active st) -> exists y, e = Fin y /\ -90 <= y <= 90.
Proof.
  assert (Hlast : last (g_lat g) 0 = lat (n - 1)) by (rewrite last_nth', lat_length; reflexivity).
  induction m as [|m IH]; intros i active st Hm Hi HA s e.
  - cbn [seq map wg_loop]. rewrite Hlast. destruct active; cbn [In]; [|tauto]. intros [E|[]]. injection E as <- <-.
    eexists. split; [reflexivity|]. apply lat_ge. lia.
  - assert (HSi : (S i < n)%nat) by lia.
    cbn [seq map wg_loop]. unfold seg at 1. destruct active; cbn [andb negb].
    + destruct (eltb (kk (S i)) (Fin k)) eqn:E.
      * apply eltb_below in E.
        destruct (seg_end k (lat i) (lat (S i)) (kk i) (kk (S i)) (lat_step i HSi) (kk_nan i Hi) (HA eq_refl) E) as [y [Ee [Re _]]].
        rewrite Ee. cbn [In]. intros [I1|I1].
        -- injection I1 as <- <-. exists y. split; [reflexivity|]. pose proof (lat_ge i Hi). pose proof (lat_ge (S i) HSi). lra.
        -- apply (IH (S i) false st) with (s := s); auto; try lia; discriminate.
      * apply IH; try lia. intros _ B. apply eltb_below in B. congruence.
    + destruct (eltb (Fin k) (kk (S i))) eqn:E; apply IH; try lia; try discriminate.
      intros _ B. apply eltb_above in E. destruct (kk (S i)); cbn in *; lra.
Qed.

(** ** extract_ks_waveguides *)
Lemma zip3_nth {A B C} (dA : A) (dB : B) (dC : C) : forall l m p, length m = length l -> length p = length l ->
  zip3 l m p = map (fun i => (nth i l dA, nth i m dB, nth i p dC)) (seq 0 (length l)).
Proof.
  induction l as [|a l IH]; destruct m as [|b m], p as [|c p]; intros H1 H2; try discriminate; [reflexivity|].
  cbn [zip3 length seq map nth]. f_equal. rewrite <- seq_shift, map_map. cbn [nth]. apply IH; cbn in *; lia.
Qed.
Lemma removelast_length {A} (l : list A) : length (removelast l) = (length l - 1)%nat.
Proof.
  induction l as [|a [|b l] IH]; [reflexivity|reflexivity|]. cbn [removelast length] in *. rewrite IH. lia.
Qed.
Lemma removelast_nth {A} (d : A) (l : list A) : forall i, (S i < length l)%nat -> nth i (removelast l) d = nth i l d.
Proof.
  induction l as [|a l IH]; intros i Hi; cbn [length] in *; [lia|]. destruct l as [|b l]; [cbn in Hi; lia|].
  change (removelast (a :: b :: l)) with (a :: removelast (b :: l)).
  destruct i; [reflexivity|]. cbn [nth]. apply IH. cbn [length] in *. lia.
Qed.

Lemma extract_form z kc : Forall2 stands_for z ks -> stands_for kc (Fin k) ->
  extract_ks_waveguides g z kc
    = Ok (wg_loop g (Fin k) (map seg (seq 0 (n - 1))) (eleb (Fin k) (kk 0)) (Fin (lat 0))).
Proof.
  intros Hz Hk. unfold extract_ks_waveguides. rewrite (stands_for_map _ _ Hz), (stands_for_real _ _ Hk).
  pose proof (gf_nlat3 _ _ _ _ (mk_grid_facts _ _ _ _ _ Hg)) as N3.
  assert (E : zip3 (removelast (g_lat g)) (removelast ks) (tl ks) = map seg (seq 0 (n - 1))).
  { rewrite (zip3_nth 0 NaN NaN); rewrite ?removelast_length, ?lat_length, ?Hl; try reflexivity.
    - apply map_ext_in. intros i Hi. apply in_seq in Hi. unfold seg.
      rewrite !removelast_nth by (rewrite ?lat_length; lia). f_equal. destruct ks; [cbn in Hl; lia|reflexivity].
    - destruct ks; cbn [tl length] in *; lia. }
  rewrite E.
  assert (M : forall (F : ext -> list (ext * ext)) l, (0 < length l)%nat ->
    match l with nil => Err IndexError | x :: _ => Ok (F x) end = Ok (F (nth 0 l NaN))).
  { intros F [|x l] H; [cbn in H; lia|reflexivity]. }
  rewrite (M (fun x => wg_loop g (Fin k) (map seg (seq 0 (n - 1))) (eleb (Fin k) x) (Fin (hd 0 (g_lat g))))) by lia.
  do 3 f_equal. destruct (g_lat g); reflexivity.
Qed.

Lemma extract_ok z kc : Forall2 stands_for z ks -> stands_for kc (Fin k) -> ~ jumps k ks ->
  exists L, extract_ks_waveguides g z kc = Ok (intervals L)
    /\ north_to_south 90 L
    /\ (forall j, (j < n)%nat -> above k (kk j) -> exists s' e', In (s', e') L /\ e' <= lat j <= s')
    /\ (forall j s' e', (j < n)%nat -> below k (kk j) -> In (s', e') L -> ~ (e' < lat j < s'))
    /\ (all_finite ks -> forall j s' e', (j < n)%nat -> below k (kk j) -> In (s', e') L -> ~ (e' <= lat j <= s'))
    /\ (forall s' e', In (s', e') L -> start_ok s' /\ end_ok e').
Proof.
  intros Hz Hk J. rewrite (extract_form z kc Hz Hk).
  pose proof (gf_nlat3 _ _ _ _ (mk_grid_facts _ _ _ _ _ Hg)) as N3.
  assert (H0 : lat 0 = 90) by (rewrite lat_nth by lia; cbn [INR]; lra).
  destruct (loop_ok J (n - 1) 0 (eleb (Fin k) (kk 0)) (lat 0)) as [L [EL [NL [_ [CL [XL [FL BL]]]]]]]; try lia.
  - intros A. apply eleb_above in A; [|apply kk_nan; lia]. split; [lra|]. split; [auto|]. left. auto.
  - intros A B. assert (C : eleb (Fin k) (kk 0) = true); [|congruence].
    apply eleb_above; [apply kk_nan; lia|]. intros C. destruct (kk 0); cbn in *; lra.
  - exists L. split; [now rewrite EL|]. split; [destruct (eleb _ _) in NL; now rewrite <- H0|].
    split; [intros j Hj; apply CL; lia|]. split; [intros j s' e' Hj; apply XL; lia|].
    split; [|auto]. intros AF j s' e' Hj. apply (FL AF); lia.
Qed.

Lemma extract_nan z kc : Forall2 stands_for z ks -> stands_for kc (Fin k) ->
  exists W, extract_ks_waveguides g z kc = Ok W
    /\ (forall s e, In (s, e) W -> exists y, e = Fin y /\ -90 <= y <= 90)
    /\ (jumps k ks -> exists e, In (NaN, e) W).
Proof.
  intros Hz Hk. rewrite (extract_form z kc Hz Hk).
  pose proof (gf_nlat3 _ _ _ _ (mk_grid_facts _ _ _ _ _ Hg)) as N3.
  eexists. split; [reflexivity|]. split.
  - apply loop_ends; try lia. intros A. apply eleb_above in A; [auto|apply kk_nan; lia].
  - intros [j [x [Hj [E1 [E2 Hx]]]]]. rewrite Hl in Hj. eapply loop_jump; eauto; try lia.
    intros B. destruct (eleb (Fin k) (kk 0)) eqn:A; [|reflexivity]. apply eleb_above in A; [tauto|apply kk_nan; lia].
Qed.
End Loop.

(** ** Ks squared *)
Section Squared.
Variables (res rs om : R) (nt : option Z) (g : grid).
Hypothesis Hg : mk_grid res rs om nt = Ok g.
Notation n := (g_nlat g).

Lemma profile_zonal f v : profile_of g f v -> zonal_profile f = Ok v.
Proof.
  intros [HL [->|[m [-> [Hs H]]]]]; [reflexivity|]. cbn [zonal_profile]. f_equal.
  pose proof (gf_nlon4 _ _ _ _ (mk_grid_facts _ _ _ _ _ Hg)) as N4.
  apply (list_eq_nth 0).
  - rewrite map_length, (proj1 Hs). auto.
  - intros i Hi. rewrite map_length, (proj1 Hs) in Hi.
    rewrite (nth_map_lt _ _ _ nil) by (rewrite (proj1 Hs); auto). unfold vmean. rewrite <- (H i Hi).
    rewrite (proj1 (Forall_forall _ _) (proj2 Hs)) by (apply nth_In; rewrite (proj1 Hs); auto).
    field. apply not_0_INR. lia.
Qed.

Lemma derivative_profile_form o a v : denotes a o -> (S (ord o) <= n)%nat -> length v = n ->
  exists d, derivative_profile g v a = Ok d /\ derivative_meridional g (A1 v) a = Ok (A1 d) /\ length d = n
    /\ nth 0 d 0 = 0 /\ nth (n - 1) d 0 = 0.
Proof.
  intros Hd Hn Hl. unfold derivative_profile. rewrite (dm_1d g o a v Hd Hn Hl). cbn [bind].
  eexists. split; [reflexivity|]. split; [reflexivity|]. split; [apply tab_length|].
  pose proof (gf_nlat3 _ _ _ _ (mk_grid_facts _ _ _ _ _ Hg)) as N3.
  rewrite !tab_nth by lia. unfold is_pole. rewrite !Nat.eqb_refl, orb_true_r. cbn [orb]. unfold Rdiv. split; ring.
Qed.

Lemma bcast2_same f v w : length v = length w -> bcast2 f v w = Ok (map2 f v w).
Proof. intros H. unfold bcast2. now rewrite (proj2 (Nat.eqb_eq _ _) H). Qed.
Lemma map2_nth {A B C} (f : A -> B -> C) dA dB dC : forall l m i, length l = length m -> (i < length l)%nat ->
  nth i (map2 f l m) dC = f (nth i l dA) (nth i m dB).
Proof.
  induction l as [|a l IH]; destruct m as [|b m]; intros i H Hi; cbn [length] in *; try lia.
  destruct i; [reflexivity|]. cbn [map2 nth]. apply IH; lia.
Qed.
Lemma map2_len {A B C} (f : A -> B -> C) : forall l m, length l = length m -> length (map2 f l m) = length l.
Proof. induction l; destruct m; intros H; cbn [length map2] in *; try lia. rewrite IHl; lia. Qed.

Lemma ks2_at_spec min_u a u : 0 <= min_u ->
  (min_u < Rabs u -> ks2_at min_u a u = Fin (a / u))
  /\ (Rabs u <= min_u -> (a = 0 -> ks2_at min_u a u = Fin 0) /\ (0 < a -> ks2_at min_u a u = PInf)
       /\ (a < 0 -> ks2_at min_u a u = NInf)).
Proof.
  intros Hm. unfold ks2_at, isclose_tol. rewrite Rminus_0_r, Rabs_R0, Rmult_0_r, Rplus_0_r. split.
  - intros H. replace (Rleb (Rabs u) min_u) with false by (symmetry; apply Rleb_false; lra).
    cbn [ediv]. replace (Reqb u 0) with false; [reflexivity|]. symmetry. apply Reqb_false.
    intros ->. rewrite Rabs_R0 in H. lra.
  - intros H. replace (Rleb (Rabs u) min_u) with true by (symmetry; apply Rleb_true; lra).
    split; [|split].
    + intros ->. replace (Reqb 0 0) with true by (symmetry; now apply Reqb_true). reflexivity.
    + intros Ha. replace (Reqb a 0) with false by (symmetry; apply Reqb_false; lra). cbn [negb emul]. unfold signed_inf.
      now replace (Rltb 0 a) with true by (symmetry; apply Rltb_true; lra).
    + intros Ha. replace (Reqb a 0) with false by (symmetry; apply Reqb_false; lra). cbn [negb emul]. unfold signed_inf.
      replace (Rltb 0 a) with false by (symmetry; apply Rltb_false; lra).
      now replace (Rltb a 0) with true by (symmetry; apply Rltb_true; lra).
Qed.

Lemma np_cosd_inner i : (0 < i < n - 1)%nat -> np_cosd (nth i (g_lat g) 0) = cos (nth i (g_phi g) 0).
Proof.
  intros Hi. rewrite phi_nth by lia. unfold np_cosd. destruct (Req_EM_T _ 0) as [E|E]; [|reflexivity].
  exfalso. assert (-90 < nth i (g_lat g) 0 < 90).
  { pose proof (gf_nlat3 _ _ _ _ (mk_grid_facts _ _ _ _ _ Hg)) as N3.
    pose proof (lat_step _ _ _ _ _ Hg 0 ltac:(lia)). pose proof (lat_step _ _ _ _ _ Hg (n - 2) ltac:(lia)) as S2.
    pose proof (lat_mono _ _ _ _ _ Hg i 1 ltac:(lia) ltac:(lia)).
    pose proof (lat_mono _ _ _ _ _ Hg (n - 2) i ltac:(lia) ltac:(lia)).
    pose proof (lat_ge g 0 ltac:(lia)). pose proof (lat_ge g (S (n - 2)) ltac:(lia)). lra. }
  assert (0 < cos (deg2rad (nth i (g_lat g) 0))); [|lra].
  pose proof PI_RGT_0. apply cos_gt_0; unfold deg2rad; nra.
Qed.

Lemma ks_squared_form o a u u1 pv q dq min_u :
  denotes a o -> (S (ord o) <= n)%nat -> 0 <= min_u -> profile_of g u u1 ->
  ks_pv g u1 pv a = Ok q -> length q = n -> derivative_meridional g (A1 q) a = Ok (A1 dq) ->
  exists sq, ks_squared g u pv a min_u = Ok sq /\ length sq = n
    /\ nth 0 sq NaN = Fin 0 /\ nth (n - 1) sq NaN = Fin 0
    /\ forall i, (i < n)%nat ->
      (min_u < Rabs (nth i u1 0) ->
         nth i sq NaN = Fin (rs * (cos (nth i (g_phi g) 0)) ^ 2 * nth i dq 0 / nth i u1 0))
      /\ (Rabs (nth i u1 0) <= min_u ->
            (nth i dq 0 = 0 -> nth i sq NaN = Fin 0) /\ (0 < nth i dq 0 -> nth i sq NaN = PInf)
            /\ (nth i dq 0 < 0 -> nth i sq NaN = NInf)).
Proof.
  intros Hd Hn Hm Hu Hpv Hq Hdq. pose proof (mk_grid_facts _ _ _ _ _ Hg) as F.
  pose proof (gf_nlat3 _ _ _ _ F) as N3.
  destruct (derivative_profile_form o a q Hd Hn Hq) as [d [E1 [E2 [Ld [P0 P1]]]]].
  assert (d = dq) by congruence. subst d.
  unfold ks_squared. rewrite (profile_zonal u u1 Hu). cbn [bind]. rewrite Hpv. cbn [bind]. rewrite E1. cbn [bind].
  rewrite bcast2_same by (rewrite map_length, lat_length; lia). cbn [bind].
  set (av := map2 Rmult _ dq). assert (La : length av = n).
  { unfold av. rewrite map2_len by (rewrite map_length, lat_length; lia). rewrite map_length. apply lat_length. }
  assert (Lu : length u1 = n) by apply Hu.
  replace (length u1 =? length av)%nat with true by (symmetry; apply Nat.eqb_eq; lia).
  assert (Sq : forall i, (i < n)%nat -> nth i (map2 (ks2_at min_u) av u1) NaN
            = ks2_at min_u ((np_cosd (nth i (g_lat g) 0)) ^ 2 * rs * nth i dq 0) (nth i u1 0)).
  { intros i Hi. rewrite (map2_nth _ 0 0) by lia. f_equal. unfold av.
    rewrite (map2_nth _ 0 0) by (rewrite map_length, lat_length; lia). f_equal.
    rewrite (nth_map_lt _ _ _ 0) by (rewrite lat_length; lia). now rewrite (gf_rs _ _ _ _ F). }
  assert (Main : forall i, (i < n)%nat ->
      (min_u < Rabs (nth i u1 0) ->
         nth i (map2 (ks2_at min_u) av u1) NaN = Fin (rs * (cos (nth i (g_phi g) 0)) ^ 2 * nth i dq 0 / nth i u1 0))
      /\ (Rabs (nth i u1 0) <= min_u ->
            (nth i dq 0 = 0 -> nth i (map2 (ks2_at min_u) av u1) NaN = Fin 0)
            /\ (0 < nth i dq 0 -> nth i (map2 (ks2_at min_u) av u1) NaN = PInf)
            /\ (nth i dq 0 < 0 -> nth i (map2 (ks2_at min_u) av u1) NaN = NInf))).
  { intros i Hi. rewrite Sq by auto.
    set (A := (np_cosd (nth i (g_lat g) 0)) ^ 2 * rs * nth i dq 0).
    destruct (ks2_at_spec min_u A (nth i u1 0) Hm) as [K1 K2].
    pose proof (np_cosd_pos _ (lat_ge g i Hi)) as C. pose proof (gf_rs_pos _ _ _ _ F) as Rp.
    assert (Q : 0 < (np_cosd (nth i (g_lat g) 0)) ^ 2 * rs) by (apply Rmult_lt_0_compat; [apply pow_lt|]; auto).
    split.
    - intros H. rewrite K1 by auto. do 2 f_equal. unfold A.
      destruct (Nat.eq_dec i 0) as [->|H0]; [rewrite P0; ring|].
      destruct (Nat.eq_dec i (n - 1)) as [->|H1]; [rewrite P1; ring|].
      rewrite np_cosd_inner by lia. ring.
    - intros H. destruct (K2 H) as [K3 [K4 K5]]. split; [|split]; intros D.
      + apply K3. unfold A. rewrite D. ring.
      + apply K4. unfold A. now apply Rmult_lt_0_compat.
      + apply K5. unfold A. nra. }
  eexists. split; [reflexivity|]. split; [rewrite map2_len; lia|].
  assert (Z0 : forall i, (i < n)%nat -> nth i dq 0 = 0 -> nth i (map2 (ks2_at min_u) av u1) NaN = Fin 0).
  { intros i Hi D. destruct (Main i Hi) as [M1 M2]. destruct (Rle_lt_dec (Rabs (nth i u1 0)) min_u) as [L|L].
    - now apply M2.
    - rewrite M1, D by auto. f_equal. unfold Rdiv. ring. }
  split; [apply Z0; auto; lia|]. split; [apply Z0; auto; lia|]. exact Main.
Qed.

Lemma ks_pv_wind o a u d : denotes a o -> (S (ord o) <= n)%nat -> length u = n ->
  derivative_meridional g (A1 (map2 Rmult u (map np_cosd (g_lat g)))) a = Ok (A1 d) ->
  exists q, ks_pv g u None a = Ok q /\ length q = n
    /\ nth 0 q 0 = coriolis g 90 /\ nth (n - 1) q 0 = coriolis g (-90)
    /\ forall i, (0 < i < n - 1)%nat ->
       nth i q 0 = coriolis g (nth i (g_lat g) 0) - nth i d 0 / (rs * cos (nth i (g_phi g) 0)).
Proof.
  intros Hd Hn Hl E. pose proof (mk_grid_facts _ _ _ _ _ Hg) as F. pose proof (gf_nlat3 _ _ _ _ F) as N3.
  unfold ks_pv.
  assert (Lc : length (map np_cosd (g_lat g)) = n) by (rewrite map_length; apply lat_length).
  rewrite bcast2_same by lia. cbn [bind].
  destruct (derivative_profile_form o a (map2 Rmult u (map np_cosd (g_lat g))) Hd Hn) as [d' [E1 [E2 [Ld [P0 P1]]]]].
  { rewrite map2_len; lia. }
  assert (d' = d) by congruence. subst d'. rewrite E1. cbn [bind].
  rewrite bcast2_same by (rewrite map_length; lia). cbn [bind].
  assert (Lf : length (g_fcor g) = n) by (unfold g_fcor; rewrite map_length; apply lat_length).
  assert (Lm : length (map (fun x => - x / g_rsphere g) d) = n) by (rewrite map_length; auto).
  assert (Lr : length (map2 Rdiv (map (fun x => - x / g_rsphere g) d) (map np_cosd (g_lat g))) = n)
    by (rewrite map2_len; lia).
  rewrite bcast2_same by lia.
  eexists. split; [reflexivity|].
  assert (Q : forall i, (i < n)%nat -> nth i (map2 Rplus (g_fcor g) (map2 Rdiv (map (fun x => - x / g_rsphere g) d) (map np_cosd (g_lat g)))) 0
    = coriolis g (nth i (g_lat g) 0) + - nth i d 0 / rs / np_cosd (nth i (g_lat g) 0)).
  { intros i Hi. rewrite (map2_nth _ 0 0) by lia. f_equal.
    - unfold g_fcor. now rewrite (nth_map_lt _ _ _ 0) by (rewrite lat_length; lia).
    - rewrite (map2_nth _ 0 0) by lia. f_equal.
      + rewrite (nth_map_lt _ _ _ 0) by lia. now rewrite (gf_rs _ _ _ _ F).
      + now rewrite (nth_map_lt _ _ _ 0) by (rewrite lat_length; lia). }
  split; [rewrite map2_len; lia|].
  assert (L0 : nth 0 (g_lat g) 0 = 90) by (rewrite lat_nth by lia; cbn [INR]; lra).
  assert (L1 : nth (n - 1) (g_lat g) 0 = -90).
  { rewrite lat_nth by lia. field. apply not_0_INR. lia. }
  split; [rewrite Q, P0, L0 by lia; unfold Rdiv; ring|].
  split; [rewrite Q, P1, L1 by lia; unfold Rdiv; ring|].
  intros i Hi. rewrite Q by lia. rewrite np_cosd_inner by auto.
  assert (C : 0 < cos (nth i (g_phi g) 0)) by (rewrite <- np_cosd_inner by auto; apply np_cosd_pos, lat_ge; lia).
  pose proof (gf_rs_pos _ _ _ _ F). field. lra.
Qed.
End Squared.
