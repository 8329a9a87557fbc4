(** StateList: proofs. *)
From Coq Require Export String.
From Verif Require Import Base Model_Grid Model_Time Model_State Model_Run Model_StateList.
From Verif Require Import Spec_Run Spec_StateList Proofs_Base Proofs_Grid Proofs_Run.
From Coq Require Import List Lia.
Open Scope R_scope.

Lemma nth_error_same {A} (l m : list A) : (forall i, nth_error l i = nth_error m i) -> l = m.
Proof.
  revert m. induction l as [|a l IH]; intros [|b m] H; try (specialize (H 0%nat); discriminate); [reflexivity|].
  pose proof (H 0%nat) as H0. cbn in H0. injection H0 as ->. f_equal. apply IH. intros i. apply (H (S i)).
Qed.
Lemma nth_error_take {A} (l : list A) n i : (i < n)%nat -> nth_error (firstn n l) i = nth_error l i.
Proof. revert n i. induction l as [|a l IH]; intros [|n] [|i] H; try lia; cbn; try reflexivity. apply IH. lia. Qed.
Lemma nth_error_drop {A} (l : list A) n i : nth_error (skipn n l) i = nth_error l (n + i).
Proof. revert n. induction l as [|a l IH]; intros [|n]; cbn; try reflexivity; [now destruct i|apply IH]. Qed.

Lemma Forall2_len {A B} (P : A -> B -> Prop) l m : Forall2 P l m -> length l = length m.
Proof. induction 1; cbn; congruence. Qed.

Section Values.
Context {K : numtype} {E O : Type}.
Notation V := (value K E O).
Notation St := (state K).

(** ** Construction *)
Lemma XState_map (a b : list St) : map (@XState K E O) a = map XState b -> a = b.
Proof.
  revert b. induction a as [|x a IH]; intros [|y b]; try discriminate; [reflexivity|].
  cbn [map]. intros H. injection H as -> H. f_equal. now apply IH.
Qed.
Definition follows (g : grid) (l : list St) : Prop := Forall (fun s => grid_eqb g (s_grid s) = true) l.
Lemma check_Some g (l : list V) r : sl_check (Some g) l = Ok r <-> l = map XState r /\ follows g r.
Proof.
  revert r. induction l as [|v l IH]; intros r; cbn [sl_check].
  - split; [intros H; apply Ok_inj in H; subst; split; [reflexivity|constructor]|].
    intros [H _]. destruct r; [reflexivity|discriminate].
  - destruct v; try (split; [discriminate|intros [H _]; destruct r; discriminate]).
    unfold passert. destruct (grid_eqb g (s_grid s)) eqn:G.
    + destruct (sl_check (Some g) l) eqn:C; cbn [bind].
      * destruct (proj1 (IH a) eq_refl) as [-> F]. split.
        -- intros H. apply Ok_inj in H. subst r. split; [reflexivity|]. now constructor.
        -- intros [H F']. destruct r as [|s' r]; [discriminate|]. cbn [map] in H. injection H as -> H.
           apply XState_map in H. now subst.
      * split; [discriminate|]. intros [H F']. destruct r as [|s' r]; [discriminate|]. cbn [map] in H. injection H as -> ->.
        inversion F'; subst. pose proof (proj2 (IH r) (conj eq_refl H2)) as Q. discriminate Q.
    + split; [discriminate|]. intros [H F']. destruct r as [|s' r]; [discriminate|]. cbn [map] in H. injection H as -> ->.
      inversion F'; subst. congruence.
Qed.
Lemma check_None (l : list V) : sl_check None l =
  match l with XState s :: _ => sl_check (Some (s_grid s)) l | _ => sl_check None l end.
Proof. destruct l as [|[] l]; reflexivity. Qed.
Lemma on_first_cons (s : St) l : on_first_grid (s :: l) <-> follows (s_grid s) (s :: l).
Proof.
  unfold on_first_grid, follows. rewrite Forall_forall. cbn [hd_error]. split.
  - intros H. apply (H s eq_refl).
  - intros H s0 [= <-]. exact H.
Qed.
Lemma on_first_nil : @on_first_grid K nil.
Proof. intros s0 [=]. Qed.
Lemma mk_accepts (l : list V) r : mk_statelist l = Ok r <-> l = map XState r /\ on_first_grid r.
Proof.
  unfold mk_statelist. rewrite check_None. destruct l as [|v l].
  - cbn. split.
    + intros H. apply Ok_inj in H. subst. split; [reflexivity|apply on_first_nil].
    + intros [H _]. destruct r; [reflexivity|discriminate].
  - destruct v; try (cbn; split; [discriminate|intros [H _]; destruct r; discriminate]).
    rewrite check_Some. destruct r as [|s' r]; [split; intros [H _]; discriminate|].
    rewrite on_first_cons. split; intros [H F]; (split; [exact H|]); cbn [map] in H; injection H as -> _; exact F.
Qed.
Lemma check_type g (l : list V) : sl_check (Some g) l = Err TypeError <->
  exists good x rest, l = map XState good ++ x :: rest /\ follows g good /\ not_a_state x.
Proof.
  induction l as [|v l IH]; cbn [sl_check].
  - split; [discriminate|]. intros [[|? ?] [x [rest [H _]]]]; discriminate.
  - assert (NS : not_a_state v -> Err TypeError = @Err (list St) TypeError <->
      exists good x rest, v :: l = map XState good ++ x :: rest /\ follows g good /\ not_a_state x).
    { intros N. split; [|reflexivity]. intros _. exists nil, v, l. split; [reflexivity|]. split; [constructor|exact N]. }
    destruct v; try (apply NS; intros s; discriminate). clear NS.
    unfold passert. destruct (grid_eqb g (s_grid s)) eqn:G.
    + transitivity (sl_check (Some g) l = Err TypeError).
      { destruct (sl_check (Some g) l); cbn [bind]; split; intros H; try discriminate; congruence. }
      rewrite IH. split.
      * intros [good [x [rest [-> [F N]]]]]. exists (s :: good), x, rest. split; [reflexivity|]. split; [now constructor|exact N].
      * intros [[|s' good] [x [rest [H [F N]]]]].
        -- cbn in H. injection H as <- _. now destruct (N s).
        -- cbn [map app] in H. injection H as <- ->. inversion F; subst. exists good, x, rest. auto.
    + split; [discriminate|]. intros [[|s' good] [x [rest [H [F N]]]]].
      * cbn in H. injection H as <- _. now destruct (N s).
      * cbn [map app] in H. injection H as <- ->. inversion F; subst. congruence.
Qed.
Lemma check_assert g (l : list V) : sl_check (Some g) l = Err AssertionError <->
  exists good s rest, l = map XState good ++ XState s :: rest /\ follows g good /\ grid_eqb g (s_grid s) = false.
Proof.
  induction l as [|v l IH]; cbn [sl_check].
  - split; [discriminate|]. intros [[|? ?] [x [rest [H _]]]]; discriminate.
  - destruct v; try (split; [discriminate|intros [[|? ?] [x' [rest [H _]]]]; discriminate]).
    unfold passert. destruct (grid_eqb g (s_grid s)) eqn:G.
    + transitivity (sl_check (Some g) l = Err AssertionError).
      { destruct (sl_check (Some g) l); cbn [bind]; split; intros H; try discriminate; congruence. }
      rewrite IH. split.
      * intros [good [x [rest [-> [F N]]]]]. exists (s :: good), x, rest. split; [reflexivity|]. split; [now constructor|exact N].
      * intros [[|s' good] [x [rest [H [F N]]]]].
        -- cbn in H. injection H as <- _. congruence.
        -- cbn [map app] in H. injection H as <- ->. inversion F; subst. exists good, x, rest. auto.
    + split; [|reflexivity]. intros _. exists nil, s, l. split; [reflexivity|]. split; [constructor|exact G].
Qed.
Lemma mk_type (l : list V) : mk_statelist l = Err TypeError <-> first_bad_is not_a_state l.
Proof.
  unfold mk_statelist, first_bad_is. rewrite check_None. destruct l as [|v l].
  - cbn. split; [discriminate|]. intros [[|? ?] [x [rest [H _]]]]; discriminate.
  - assert (NS : not_a_state v -> sl_check None (v :: l) = Err TypeError <->
      exists good x rest, v :: l = map XState good ++ x :: rest /\ on_first_grid good /\ not_a_state x).
    { intros N. split; [|destruct v; try reflexivity; now destruct (N s)]. intros _. exists nil, v, l.
      split; [reflexivity|]. split; [apply on_first_nil|exact N]. }
    destruct v; try (apply NS; intros s; discriminate). clear NS. rewrite check_type. split.
    + intros [good [x [rest [H [F N]]]]]. exists good, x, rest. split; [exact H|]. split; [|exact N].
      destruct good as [|s' good]; [apply on_first_nil|]. cbn [map app] in H. injection H as -> _. now apply on_first_cons.
    + intros [good [x [rest [H [F N]]]]]. exists good, x, rest. split; [exact H|]. split; [|exact N].
      destruct good as [|s' good]; [constructor|]. cbn [map app] in H. injection H as -> _. now apply on_first_cons.
Qed.
Lemma mk_assert (l : list V) : mk_statelist l = Err AssertionError <->
  exists first good s rest, l = map XState (first :: good) ++ XState s :: rest /\ on_first_grid (first :: good)
  /\ grid_eqb (s_grid first) (s_grid s) = false.
Proof.
  unfold mk_statelist. rewrite check_None. destruct l as [|v l].
  - cbn. split; [discriminate|]. intros [? [? [x [rest [H _]]]]]; discriminate.
  - destruct v; try (cbn; split; [discriminate|intros [? [? [x' [rest [H _]]]]]; discriminate]).
    rewrite check_assert. split.
    + intros [[|f good] [x [rest [H [F N]]]]].
      * cbn in H. injection H as -> _. now rewrite grid_eqb_refl in N.
      * cbn [map app] in H. injection H as -> H. exists f, good, x, rest. split; [cbn; now rewrite H|]. split; [now apply on_first_cons|exact N].
    + intros [f [good [x [rest [H [F N]]]]]]. exists (f :: good), x, rest. split; [exact H|]. cbn in H. injection H as -> _.
      split; [now apply on_first_cons|exact N].
Qed.
Lemma check_outcomes g (l : list V) :
  (exists r, sl_check (Some g) l = Ok r) \/ sl_check (Some g) l = Err TypeError \/ sl_check (Some g) l = Err AssertionError.
Proof.
  induction l as [|v l IH]; cbn [sl_check]; [eauto|]. destruct v; auto. unfold passert.
  destruct (grid_eqb g (s_grid s)); [|auto]. destruct IH as [[r ->]|[->| ->]]; cbn; eauto.
Qed.
Lemma mk_outcomes (l : list V) :
  (exists r, mk_statelist l = Ok r) \/ mk_statelist l = Err TypeError \/ mk_statelist l = Err AssertionError.
Proof.
  unfold mk_statelist. rewrite check_None. destruct l as [|v l]; [cbn; eauto|].
  destruct v; try (cbn; auto). apply (check_outcomes _ (XState s :: l)).
Qed.

(** ** Sequence interface *)
Lemma getitem_nonneg (l : list St) (i : nat) s : nth_error l i = Some s ->
  sl_getitem l (SInt (Z.of_nat i)) = Ok (OneState s).
Proof.
  intros H. pose proof (proj1 (nth_error_Some l i) ltac:(congruence)) as L. unfold sl_getitem.
  destruct (Z.ltb_spec (Z.of_nat i) 0); [lia|]. destruct (Z.leb_spec 0 (Z.of_nat i)); [|lia].
  destruct (Z.ltb_spec (Z.of_nat i) (Z.of_nat (length l))); [|lia]. cbn [andb]. now rewrite Nat2Z.id, H.
Qed.
Lemma getitem_negative (l : list St) (i : nat) s : nth_error l i = Some s ->
  sl_getitem l (SInt (Z.of_nat i - Z.of_nat (length l))) = Ok (OneState s).
Proof.
  intros H. pose proof (proj1 (nth_error_Some l i) ltac:(congruence)) as L. unfold sl_getitem.
  destruct (Z.ltb_spec (Z.of_nat i - Z.of_nat (length l)) 0); [|lia].
  replace (Z.of_nat i - Z.of_nat (length l) + Z.of_nat (length l))%Z with (Z.of_nat i) by lia.
  destruct (Z.leb_spec 0 (Z.of_nat i)); [|lia].
  destruct (Z.ltb_spec (Z.of_nat i) (Z.of_nat (length l))); [|lia]. cbn [andb]. now rewrite Nat2Z.id, H.
Qed.
Lemma getitem_outside (l : list St) i : (i < - Z.of_nat (length l) \/ Z.of_nat (length l) <= i)%Z ->
  sl_getitem l (SInt i) = Err IndexError.
Proof.
  intros H. unfold sl_getitem. destruct (Z.ltb_spec i 0).
  - destruct (Z.leb_spec 0 (i + Z.of_nat (length l))); [lia|]. reflexivity.
  - destruct (Z.leb_spec 0 i); [|lia]. destruct (Z.ltb_spec i (Z.of_nat (length l))); [lia|]. reflexivity.
Qed.
Lemma nth_errors_ok {A} (l : list A) is : Forall (fun i => (0 <= i < Z.of_nat (length l))%Z) is ->
  exists r, nth_errors l is = Ok r /\ Forall2 (fun i x => nth_error l (Z.to_nat i) = Some x) is r.
Proof.
  induction is as [|i is IH]; intros F; cbn [nth_errors]; [eauto|]. inversion F; subst.
  destruct (IH H2) as [r [-> R]]. destruct (nth_error l (Z.to_nat i)) eqn:N.
  - cbn. exists (a :: r). split; [reflexivity|]. now constructor.
  - apply nth_error_None in N. lia.
Qed.

(** the subscripts a Python slice denotes *)
Lemma clamp_range lo up n i : (lo <= up)%Z -> (lo = 0 /\ up = n \/ lo = -1 /\ up = n - 1)%Z -> (lo <= clamp lo up n i <= up)%Z.
Proof. intros H B. unfold clamp. destruct (Z.ltb_spec i 0); lia. Qed.
Lemma slice_valid n start stop step a count : (0 <= n)%Z -> step <> 0%Z -> slice_range n start stop step = (a, count) ->
  forall k, (k < count)%nat -> (0 <= a + Z.of_nat k * step < n)%Z.
Proof.
  intros N S H k L. unfold slice_range in H. destruct (Z.ltb_spec step 0) as [D|D].
  - set (a0 := match start with Some i => clamp (-1) (n - 1) n i | None => (n - 1)%Z end) in *.
    set (b0 := match stop with Some i => clamp (-1) (n - 1) n i | None => (-1)%Z end) in *.
    assert (A : (-1 <= a0 <= n - 1)%Z) by (unfold a0; destruct start; [apply clamp_range|]; lia).
    assert (B : (-1 <= b0 <= n - 1)%Z) by (unfold b0; destruct stop; [apply clamp_range|]; lia).
    injection H as <- <-. destruct (Z.ltb_spec b0 a0) as [Q|Q]; [|cbn in L; lia].
    assert (L' : (Z.of_nat k <= (a0 - b0 - 1) / (- step))%Z).
    { pose proof (Z.div_pos (a0 - b0 - 1) (- step)). lia. }
    pose proof (Z.mul_div_le (a0 - b0 - 1) (- step)). nia.
  - set (a0 := match start with Some i => clamp 0 n n i | None => 0%Z end) in *.
    set (b0 := match stop with Some i => clamp 0 n n i | None => n end) in *.
    assert (A : (0 <= a0 <= n)%Z) by (unfold a0; destruct start; [apply clamp_range|]; lia).
    assert (B : (0 <= b0 <= n)%Z) by (unfold b0; destruct stop; [apply clamp_range|]; lia).
    injection H as <- <-. destruct (Z.ltb_spec a0 b0) as [Q|Q]; [|cbn in L; lia].
    assert (L' : (Z.of_nat k <= (b0 - a0 - 1) / step)%Z).
    { pose proof (Z.div_pos (b0 - a0 - 1) step). lia. }
    pose proof (Z.mul_div_le (b0 - a0 - 1) step). nia.
Qed.
Lemma getitem_slice (l : list St) start stop step :
  let k := match step with Some k => k | None => 1%Z end in k <> 0%Z ->
  exists t, sl_getitem l (SSlice start stop step) = Ok (ATuple t)
  /\ Forall2 (fun j s => nth_error l (Z.to_nat (fst (slice_range (Z.of_nat (length l)) start stop k) + Z.of_nat j * k)) = Some s)
       (seq 0 (snd (slice_range (Z.of_nat (length l)) start stop k))) t.
Proof.
  intros k N. unfold sl_getitem. fold k. destruct (Z.eqb_spec k 0); [contradiction|].
  destruct (slice_range (Z.of_nat (length l)) start stop k) as [a c] eqn:R.
  destruct (nth_errors_ok l (map (fun j => (a + Z.of_nat j * k)%Z) (seq 0 c))) as [r [-> F]].
  - apply Forall_forall. intros i Hi. apply in_map_iff in Hi. destruct Hi as [j [<- Hj]]. apply in_seq in Hj.
    apply (slice_valid _ _ _ _ _ _ (Nat2Z.is_nonneg _) N R). lia.
  - exists r. split; [reflexivity|]. cbn [fst snd]. clear -F. remember (seq 0 c) as q eqn:Hq. clear Hq. revert r F.
    induction q as [|j q IH]; intros r F; inversion F; subst; constructor; auto.
Qed.
Lemma slice_positions n start stop step a count : (0 <= n)%Z -> step <> 0%Z -> slice_range n start stop step = (a, count) ->
  forall p, (exists k, (k < count)%nat /\ p = (a + Z.of_nat k * step)%Z) <-> in_slice n start stop step p.
Proof.
  intros N S H p. pose proof (slice_valid n start stop step a count N S H) as V. unfold in_slice. unfold slice_range in H.
  destruct (Z.ltb_spec step 0) as [D|D].
  - destruct (Z.ltb_spec 0 step) as [D'|_]; [lia|].
    set (a0 := match start with Some i => clamp (-1) (n - 1) n i | None => (n - 1)%Z end) in *.
    set (b0 := match stop with Some i => clamp (-1) (n - 1) n i | None => (-1)%Z end) in *.
    set (fst_ := match start with Some i => Z.min (n - 1) (from_end n i) | None => (n - 1)%Z end).
    assert (A : (-1 <= a0 <= n - 1)%Z) by (unfold a0; destruct start; [apply clamp_range|]; lia).
    assert (B : (-1 <= b0 <= n - 1)%Z) by (unfold b0; destruct stop; [apply clamp_range|]; lia).
    assert (AF : (0 <= a0 -> fst_ = a0)%Z /\ (0 <= fst_ -> fst_ = a0)%Z).
    { unfold a0, fst_, from_end, clamp. destruct start as [i|]; [destruct (Z.ltb_spec i 0)|]; lia. }
    assert (BF : forall q, (0 <= q < n)%Z -> (b0 < q)%Z <-> (forall i, stop = Some i -> (from_end n i < q)%Z)).
    { intros q Hq. unfold b0, from_end, clamp. destruct stop as [j|].
      - split.
        + intros HQ i [= <-]. destruct (Z.ltb_spec j 0); lia.
        + intros HQ. specialize (HQ j eq_refl). destruct (Z.ltb_spec j 0); lia.
      - split; [intros _ i Q; discriminate|lia]. }
    injection H as <- <-. split.
    + intros [k [Hk ->]]. specialize (V k Hk). split; [exact V|]. destruct (Z.ltb_spec b0 a0) as [Q|Q]; [|cbn in Hk; lia].
      assert (EQ : fst_ = a0) by (apply AF; lia). rewrite EQ. split; [nia|]. split; [exists (Z.of_nat k); lia|].
      apply BF; [exact V|]. assert (L' : (Z.of_nat k <= (a0 - b0 - 1) / (- step))%Z).
      { pose proof (Z.div_pos (a0 - b0 - 1) (- step)). lia. }
      pose proof (Z.mul_div_le (a0 - b0 - 1) (- step)). nia.
    + intros [R [P [[k Ek] Q]]]. apply BF in Q; [|exact R]. assert (EQ : fst_ = a0) by (apply AF; lia). rewrite EQ in *.
      assert (K0 : (0 <= k)%Z) by nia. exists (Z.to_nat k). split; [|rewrite Z2Nat.id by lia; lia].
      destruct (Z.ltb_spec b0 a0); [|lia]. apply Z2Nat.inj_lt; [lia| |].
      * pose proof (Z.div_pos (a0 - b0 - 1) (- step)). lia.
      * assert ((k <= (a0 - b0 - 1) / (- step))%Z); [|lia]. apply Z.div_le_lower_bound; nia.
  - destruct (Z.ltb_spec 0 step) as [D'|]; [|lia].
    set (a0 := match start with Some i => clamp 0 n n i | None => 0%Z end) in *.
    set (b0 := match stop with Some i => clamp 0 n n i | None => n end) in *.
    set (fst_ := match start with Some i => Z.max 0 (from_end n i) | None => 0%Z end).
    assert (A : (0 <= a0 <= n)%Z) by (unfold a0; destruct start; [apply clamp_range|]; lia).
    assert (B : (0 <= b0 <= n)%Z) by (unfold b0; destruct stop; [apply clamp_range|]; lia).
    assert (AF : (a0 < n -> fst_ = a0)%Z /\ (fst_ < n -> fst_ = a0)%Z).
    { unfold a0, fst_, from_end, clamp. destruct start as [i|]; [destruct (Z.ltb_spec i 0)|]; lia. }
    assert (BF : forall q, (0 <= q < n)%Z -> (q < b0)%Z <-> (forall i, stop = Some i -> (q < from_end n i)%Z)).
    { intros q Hq. unfold b0, from_end, clamp. destruct stop as [j|].
      - split.
        + intros HQ i [= <-]. destruct (Z.ltb_spec j 0); lia.
        + intros HQ. specialize (HQ j eq_refl). destruct (Z.ltb_spec j 0); lia.
      - split; [intros _ i Q; discriminate|lia]. }
    injection H as <- <-. split.
    + intros [k [Hk ->]]. specialize (V k Hk). split; [exact V|]. destruct (Z.ltb_spec a0 b0) as [Q|Q]; [|cbn in Hk; lia].
      assert (EQ : fst_ = a0) by (apply AF; lia). rewrite EQ. split; [nia|]. split; [exists (Z.of_nat k); lia|].
      apply BF; [exact V|]. assert (L' : (Z.of_nat k <= (b0 - a0 - 1) / step)%Z).
      { pose proof (Z.div_pos (b0 - a0 - 1) step). lia. }
      pose proof (Z.mul_div_le (b0 - a0 - 1) step). nia.
    + intros [R [P [[k Ek] Q]]]. apply BF in Q; [|exact R]. assert (EQ : fst_ = a0) by (apply AF; lia). rewrite EQ in *.
      assert (K0 : (0 <= k)%Z) by nia. exists (Z.to_nat k). split; [|rewrite Z2Nat.id by lia; lia].
      destruct (Z.ltb_spec a0 b0); [|lia]. apply Z2Nat.inj_lt; [lia| |].
      * pose proof (Z.div_pos (b0 - a0 - 1) step). lia.
      * assert ((k <= (b0 - a0 - 1) / step)%Z); [|lia]. apply Z.div_le_lower_bound; nia.
Qed.
Lemma steps_in_order a step c m : step <> 0%Z -> in_order step (map (fun k => (a + Z.of_nat k * step)%Z) (seq m c)).
Proof.
  intros S. revert m. induction c as [|c IH]; intros m; [exact I|]. cbn [seq map in_order]. split; [|apply IH].
  apply Forall_forall. intros q Hq. apply in_map_iff in Hq as [k [<- Hk]]. apply in_seq in Hk. nia.
Qed.
Lemma getitem_positions (l : list St) start stop step : let k := match step with Some k => k | None => 1%Z end in k <> 0%Z ->
  exists ps t, sl_getitem l (SSlice start stop step) = Ok (ATuple t) /\ Forall2 (fun p s => nth_error l (Z.to_nat p) = Some s) ps t
  /\ in_order k ps /\ forall p, In p ps <-> in_slice (Z.of_nat (length l)) start stop k p.
Proof.
  intros k N. destruct (getitem_slice l start stop step N) as [t [EQ F]]. fold k in F.
  destruct (slice_range (Z.of_nat (length l)) start stop k) as [a c] eqn:R. cbn [fst snd] in F.
  exists (map (fun j => (a + Z.of_nat j * k)%Z) (seq 0 c)), t. split; [exact EQ|]. split.
  - clear -F. induction F; cbn [map]; constructor; auto.
  - split; [now apply steps_in_order|]. intros p. rewrite <- (slice_positions _ _ _ _ _ _ (Nat2Z.is_nonneg _) N R).
    rewrite in_map_iff. split.
    + intros [j [<- Hj]]. apply in_seq in Hj. exists j. split; [lia|reflexivity].
    + intros [j [Hj ->]]. exists j. split; [reflexivity|apply in_seq; lia].
Qed.
Lemma Forall2_seq_list {A} (l : list A) t a c : (a + c <= length l)%nat ->
  Forall2 (fun j s => nth_error l (a + j) = Some s) (seq 0 c) t -> t = firstn c (skipn a l).
Proof.
  intros L F. apply nth_error_same. intros i. pose proof (Forall2_len _ _ _ F) as E1. rewrite seq_length in E1.
  destruct (Nat.lt_ge_cases i c) as [H|H].
  - assert (Q : nth_error l (a + i) = nth_error t i).
    { clear L. assert (G : forall s q t, Forall2 (fun j x => nth_error l (a + j) = Some x) (seq s q) t -> forall i, (i < q)%nat -> nth_error l (a + (s + i)) = nth_error t i).
      { clear. intros s q. revert s. induction q as [|q IH]; intros s t F i H; [lia|]. cbn in F. inversion F; subst.
        destruct i as [|i]; [cbn; now rewrite Nat.add_0_r|]. cbn. rewrite <- (IH _ _ H4 i ltac:(lia)). f_equal. lia. }
      rewrite <- (G _ _ _ F i H). reflexivity. }
    rewrite <- Q. rewrite nth_error_take by exact H. now rewrite nth_error_drop.
  - rewrite (proj2 (nth_error_None t i)) by lia. symmetry. apply nth_error_None. rewrite firstn_length. lia.
Qed.
Lemma slice_plain (l : list St) (a b : nat) : (a <= b <= length l)%nat ->
  sl_getitem l (SSlice (Some (Z.of_nat a)) (Some (Z.of_nat b)) None) = Ok (ATuple (firstn (b - a) (skipn a l))).
Proof.
  intros L. destruct (getitem_slice l (Some (Z.of_nat a)) (Some (Z.of_nat b)) None) as [t [-> F]]; [discriminate|].
  do 2 f_equal. apply (Forall2_seq_list l t a (b - a)); [lia|].
  assert (R : slice_range (Z.of_nat (length l)) (Some (Z.of_nat a)) (Some (Z.of_nat b)) 1 = (Z.of_nat a, (b - a)%nat)).
  { unfold slice_range, clamp. cbn [Z.ltb Z.compare]. destruct (Z.ltb_spec (Z.of_nat a) 0); [lia|]. destruct (Z.ltb_spec (Z.of_nat b) 0); [lia|].
    rewrite !Z.min_l by lia. f_equal. destruct (Z.ltb_spec (Z.of_nat a) (Z.of_nat b)); [|lia]. rewrite Z.div_1_r. lia. }
  rewrite R in F. cbn [fst snd] in F. clear -F. remember (seq 0 (b - a)) as q eqn:Hq. clear Hq. revert t F.
  induction q as [|j q IH]; intros t F; inversion F; subst; constructor; auto.
  rewrite <- H1. f_equal. lia.
Qed.
Lemma slice_all (l : list St) : sl_getitem l (SSlice None None None) = Ok (ATuple l).
Proof.
  transitivity (sl_getitem l (SSlice (Some (Z.of_nat 0)) (Some (Z.of_nat (length l))) None)).
  - unfold sl_getitem, slice_range, clamp. cbn [Z.ltb Z.compare]. cbn [Z.of_nat].
    destruct (Z.ltb_spec (Z.of_nat (length l)) 0); [lia|]. rewrite Z.min_id, Z.min_l by lia. reflexivity.
  - rewrite slice_plain by lia. rewrite Nat.sub_0_r. cbn [skipn]. now rewrite firstn_all.
Qed.
Lemma slice_reverse (l : list St) : sl_getitem l (SSlice None None (Some (-1)%Z)) = Ok (ATuple (rev l)).
Proof.
  destruct (getitem_slice l None None (Some (-1)%Z)) as [t [-> F]]; [discriminate|]. do 2 f_equal.
  assert (R : slice_range (Z.of_nat (length l)) None None (-1) = (Z.of_nat (length l) - 1, length l)%Z).
  { unfold slice_range. cbn [Z.ltb Z.compare]. f_equal. destruct (Z.ltb_spec (-1) (Z.of_nat (length l) - 1)); [|lia].
    change (- -1)%Z with 1%Z. rewrite Z.div_1_r. lia. }
  rewrite R in F. cbn [fst snd] in F. pose proof (Forall2_len _ _ _ F) as E1. rewrite seq_length in E1.
  apply nth_error_same. intros i. destruct (Nat.lt_ge_cases i (length l)) as [H|H].
  - assert (Q : forall (P : nat -> St -> Prop) s q t, Forall2 P (seq s q) t -> forall i, (i < q)%nat -> exists x, nth_error t i = Some x /\ P (s + i)%nat x).
    { clear. intros P s q. revert s. induction q as [|q IH]; intros s t F i H; [lia|]. cbn in F. inversion F; subst.
      destruct i as [|i]; [exists y; rewrite Nat.add_0_r; auto|]. destruct (IH _ _ H4 i ltac:(lia)) as [x [H5 H6]].
      exists x. split; [exact H5|]. now replace (s + S i)%nat with (S s + i)%nat by lia. }
    destruct (Q _ _ _ _ F i H) as [x [-> N]]. cbn [plus] in N. symmetry. rewrite <- N.
    replace (Z.to_nat (Z.of_nat (length l) - 1 + Z.of_nat i * -1)) with (length l - S i)%nat by lia.
    destruct (nth_error l (length l - S i)) as [y|] eqn:Y; [|apply nth_error_None in Y; lia].
    assert (nth_error (rev l) i = Some (nth i (rev l) y)) as -> by (apply nth_error_nth'; rewrite rev_length; exact H).
    rewrite rev_nth by exact H. f_equal. now apply nth_error_nth.
  - rewrite (proj2 (nth_error_None t i)) by lia. symmetry. apply nth_error_None. rewrite rev_length. lia.
Qed.

(** ** Concatenation *)
Lemma add_ok (a : list St) (b : list V) r : sl_add a b = Ok r <->
  exists b', b = map XState b' /\ r = a ++ b' /\ on_first_grid (a ++ b').
Proof.
  unfold sl_add. rewrite mk_accepts. split.
  - intros [H F]. exists (skipn (length a) r). pose proof (f_equal (skipn (length a)) H) as H2. pose proof (f_equal (firstn (length a)) H) as H1.
    rewrite <- (map_length (@XState K E O) a) in H1 at 1. rewrite firstn_app, firstn_all, Nat.sub_diag, app_nil_r in H1.
    rewrite firstn_map in H1. apply XState_map in H1.
    rewrite <- (map_length (@XState K E O) a) in H2 at 1. rewrite skipn_app, skipn_all, Nat.sub_diag in H2. cbn [app skipn] in H2.
    rewrite skipn_map in H2. split; [exact H2|]. rewrite H1 at 1 3. rewrite firstn_skipn. auto.
  - intros [b' [-> [-> F]]]. rewrite map_app. auto.
Qed.
Lemma on_first_app (a b : list St) : on_first_grid (a ++ b) -> on_first_grid a.
Proof.
  intros H s0 Hh s Hs. destruct a as [|x a]; [destruct Hs|]. apply (H s0); [exact Hh|]. apply in_or_app. now left.
Qed.
Lemma pairwise_on_first (l : list St) : pairwise_equal_grids l -> on_first_grid l.
Proof. intros H s0 Hh s Hs. apply H; [|exact Hs]. destruct l; [discriminate|]. injection Hh as ->. now left. Qed.

(** ** Broadcasting *)
Lemma shape_eqb_spec a b : shape_eqb a b = true <-> a = b.
Proof.
  revert b. induction a as [|x a IH]; intros [|y b]; cbn; try (split; [discriminate|discriminate]); [tauto|].
  rewrite andb_true_iff, Nat.eqb_eq, IH. split; [intros [-> ->]; reflexivity|intros [= -> ->]; auto].
Qed.
Lemma all_arrays_spec (l : list V) : (forall a, all_arrays l = Some a -> l = map XArr a)
  /\ (all_arrays l = None -> exists v, In v l /\ ~ array_value v).
Proof.
  induction l as [|v l [IH1 IH2]]; cbn [all_arrays]; [split; [intros a [= <-]; reflexivity|discriminate]|].
  assert (NB : ~ array_value v -> exists v0, In v0 (v :: l) /\ ~ array_value v0) by (intros H; exists v; split; [now left|exact H]).
  destruct v; try (split; [discriminate|]; intros _; apply NB; intros [? [=]]).
  clear NB. destruct (all_arrays l) as [t|]; split; try discriminate.
  - intros a' [= <-]. cbn. f_equal. auto.
  - intros _. destruct (IH2 eq_refl) as [v [H1 H2]]. exists v. split; [now right|exact H2].
Qed.
Lemma all_numbers_spec (l : list V) : (forall a, all_numbers l = Some a -> l = map XNum a)
  /\ (all_numbers l = None -> exists v, In v l /\ ~ number_value v).
Proof.
  induction l as [|v l [IH1 IH2]]; cbn [all_numbers]; [split; [intros a [= <-]; reflexivity|discriminate]|].
  assert (NB : ~ number_value v -> exists v0, In v0 (v :: l) /\ ~ number_value v0) by (intros H; exists v; split; [now left|exact H]).
  destruct v; try (split; [discriminate|]; intros _; apply NB; intros [? [=]]).
  clear NB. destruct (all_numbers l) as [t|]; split; try discriminate.
  - intros a' [= <-]. cbn. f_equal. auto.
  - intros _. destruct (IH2 eq_refl) as [v [H1 H2]]. exists v. split; [now right|exact H2].
Qed.
Lemma res_map_ok {A B} (f : A -> res B) l r : res_map f l = Ok r <-> Forall2 (fun a b => f a = Ok b) l r.
Proof.
  revert r. induction l as [|a l IH]; intros r; cbn [res_map].
  - split; [intros H; apply Ok_inj in H; subst; constructor|intros H; inversion H; reflexivity].
  - split.
    + intros H. destruct (f a) eqn:Fa; cbn [bind] in H; [|discriminate]. destruct (res_map f l) eqn:Fl; cbn [bind] in H; [|discriminate].
      apply Ok_inj in H. subst. constructor; [exact Fa|]. now apply IH.
    + intros H. inversion H; subst. rewrite H2. cbn [bind]. apply IH in H4. rewrite H4. reflexivity.
Qed.
Lemma slab_concat {A} n (ds : list (list A)) i d : Forall (fun x => length x = n) ds -> nth_error ds i = Some d ->
  slab n i (concat ds) = d.
Proof.
  unfold slab. revert i. induction ds as [|x ds IH]; intros i F H; [destruct i; discriminate|]. inversion F; subst.
  destruct i as [|i].
  - injection H as ->. cbn [Nat.mul skipn concat]. rewrite firstn_app, firstn_all, Nat.sub_diag. cbn. apply app_nil_r.
  - cbn [nth_error] in H. cbn [concat]. rewrite <- (IH i H3 H). f_equal. cbn [Nat.mul].
    rewrite skipn_app, skipn_all2 by lia. cbn [app]. f_equal. lia.
Qed.
Lemma convert_items (vs : list V) c : Forall proper vs -> convert_sequence vs = Ok c ->
  container_length c (length vs) /\ forall i v, nth_error vs i = Some v -> exists w, item c i w /\ same_value v w.
Proof.
  intros P H. unfold convert_sequence in H. destruct (all_arrays_spec vs) as [AA _].
  destruct (all_arrays vs) as [as_|].
  - specialize (AA _ eq_refl). subst vs. destruct (np_stack as_) as [a|] eqn:Hs; [|discriminate]. cbn in H. apply Ok_inj in H. subst c.
    destruct as_ as [|a0 as_].
    + cbn in Hs. apply Ok_inj in Hs. subst a. split; [constructor|]. intros [|i] v; discriminate.
    + unfold np_stack in Hs. destruct (forallb _ _) eqn:FB; [|discriminate]. apply Ok_inj in Hs. subst a.
      rewrite map_length. split; [constructor|]. intros i v Hi.
      assert (SH : forall b, In b (a0 :: as_) -> nd_shape b = nd_shape a0).
      { intros b Hb. rewrite forallb_forall in FB. specialize (FB b Hb). apply shape_eqb_spec in FB. congruence. }
      assert (LE : Forall (fun x => length x = size_of (nd_shape a0)) (map nd_data (a0 :: as_))).
      { apply Forall_forall. intros d Hd. apply in_map_iff in Hd. destruct Hd as [b [<- Hb]]. rewrite Forall_forall in P.
        specialize (P (XArr b) (in_map XArr _ _ Hb)). cbn in P. now rewrite P, (SH b Hb). }
      set (all := a0 :: as_) in *. clearbody all. rewrite nth_error_map in Hi. destruct (nth_error all i) as [b|] eqn:Hb; [|discriminate].
      cbn in Hi. injection Hi as <-. pose proof (nth_error_In _ _ Hb) as Ib. pose proof (SH b Ib) as Sb.
      assert (D : slab (size_of (nd_shape a0)) i (concat (map nd_data all)) = nd_data b).
      { apply slab_concat; [exact LE|]. now rewrite nth_error_map, Hb. }
      assert (Li : (i < length all)%nat) by (apply nth_error_Some; congruence).
      destruct (nd_shape a0) as [|k sh] eqn:E0.
      * cbn [size_of fold_right] in *. assert (Lb : length (nd_data b) = 1%nat).
        { rewrite Forall_forall in LE. apply LE. now apply in_map. }
        destruct (nd_data b) as [|x [|? ?]] eqn:Db; try discriminate Lb. exists (XNum x). split.
        -- constructor; [exact Li|]. unfold slab in D. rewrite Nat.mul_1_r in D.
           assert (Q : nth_error (skipn i (concat (map nd_data all))) 0 = Some x).
           { destruct (skipn i (concat (map nd_data all))); cbn in *; congruence. }
           rewrite nth_error_drop in Q. now rewrite Nat.add_0_r in Q.
        -- destruct b as [sb db]. cbn in Sb, Db. subst. constructor.
      * exists (XArr (mkNd (k :: sh) (slab (size_of (k :: sh)) i (concat (map nd_data all))))). split.
        -- constructor; [exact Li|discriminate].
        -- rewrite D. destruct b as [sb db]. cbn in Sb. cbn. rewrite Sb. constructor.
  - destruct (all_numbers_spec vs) as [AN _]. destruct (all_numbers vs) as [xs|].
    + specialize (AN _ eq_refl). subst vs. apply Ok_inj in H. subst c. unfold np_of_numbers. rewrite map_length. split; [constructor|].
      intros i v Hi. rewrite nth_error_map in Hi. destruct (nth_error xs i) as [x|] eqn:Hx; [|discriminate]. injection Hi as <-.
      exists (XNum x). split; [|constructor]. constructor; [apply nth_error_Some; congruence|exact Hx].
    + destruct (forallb is_state vs).
      * destruct (mk_statelist vs) as [l|] eqn:M; [|discriminate]. apply Ok_inj in H. subst c. apply mk_accepts in M. destruct M as [-> _].
        rewrite map_length. split; [constructor|]. intros i v Hi. rewrite nth_error_map in Hi. destruct (nth_error l i) as [x|] eqn:Hx; [|discriminate].
        injection Hi as <-. exists (XState x). split; [now constructor|constructor].
      * apply Ok_inj in H. subst c. split; [constructor|]. intros i v Hi. exists v. split; [now constructor|constructor].
Qed.
Lemma all_arrays_map (l : list (ndarr E)) : all_arrays (map (@XArr K E O) l) = Some l.
Proof. induction l; cbn; [reflexivity|]. now rewrite IHl. Qed.
Lemma all_numbers_map (l : list E) : all_numbers (map (@XNum K E O) l) = Some l.
Proof. induction l; cbn; [reflexivity|]. now rewrite IHl. Qed.
Lemma convert_kind (vs : list V) c : vs <> nil -> convert_sequence vs = Ok c ->
  (is_array c <-> Forall array_value vs \/ Forall number_value vs)
  /\ (is_statelist c <-> Forall state_value vs)
  /\ (is_list c <-> ~ Forall array_value vs /\ ~ Forall number_value vs /\ ~ Forall state_value vs).
Proof.
  intros NE H. destruct vs as [|v vs]; [congruence|]. clear NE. unfold convert_sequence in H.
  destruct (all_arrays_spec (v :: vs)) as [AA NA]. destruct (all_numbers_spec (v :: vs)) as [AN NN].
  assert (FS : forallb is_state (v :: vs) = true <-> Forall state_value (v :: vs)).
  { rewrite forallb_forall, Forall_forall. split; intros F x Hx; specialize (F x Hx).
    - destruct x; try discriminate. now exists s.
    - destruct F as [s ->]. reflexivity. }
  assert (K1 : Forall array_value (v :: vs) -> ~ Forall number_value (v :: vs) /\ ~ Forall state_value (v :: vs)).
  { intros F. inversion F; subst. destruct H2 as [a ->]. split; intros F'; inversion F'; subst; match goal with h : _ (XArr a) |- _ => destruct h; discriminate end. }
  assert (K2 : Forall number_value (v :: vs) -> ~ Forall array_value (v :: vs) /\ ~ Forall state_value (v :: vs)).
  { intros F. inversion F; subst. destruct H2 as [a ->]. split; intros F'; inversion F'; subst; match goal with h : _ (XNum a) |- _ => destruct h; discriminate end. }
  assert (NA' : all_arrays (v :: vs) = None -> ~ Forall array_value (v :: vs)).
  { intros Z F. destruct (NA Z) as [x [Hx Nx]]. rewrite Forall_forall in F. now apply Nx, F. }
  assert (NN' : all_numbers (v :: vs) = None -> ~ Forall number_value (v :: vs)).
  { intros Z F. destruct (NN Z) as [x [Hx Nx]]. rewrite Forall_forall in F. now apply Nx, F. }
  assert (D : forall c', c = CArray c' -> is_array c /\ ~ is_statelist c /\ ~ is_list c).
  { intros c' ->. repeat split; [now exists c'|intros [? [=]]|intros [? [=]]]. }
  destruct (all_arrays (v :: vs)) as [as_|].
  - destruct (np_stack as_) as [a|]; [|discriminate]. cbn in H. apply Ok_inj in H. symmetry in H.
    specialize (AA _ eq_refl). assert (F : Forall array_value (v :: vs)).
    { rewrite AA. apply Forall_forall. intros x Hx. apply in_map_iff in Hx. destruct Hx as [b [<- _]]. now exists b. }
    destruct (D _ H) as [D1 [D2 D3]]. destruct (K1 F). tauto.
  - specialize (NA' eq_refl). destruct (all_numbers (v :: vs)) as [xs|].
    + apply Ok_inj in H. symmetry in H. specialize (AN _ eq_refl). assert (F : Forall number_value (v :: vs)).
      { rewrite AN. apply Forall_forall. intros x Hx. apply in_map_iff in Hx. destruct Hx as [b [<- _]]. now exists b. }
      destruct (D _ H) as [D1 [D2 D3]]. destruct (K2 F). tauto.
    + specialize (NN' eq_refl). destruct (forallb is_state (v :: vs)).
      * destruct (mk_statelist (v :: vs)) as [l|]; [|discriminate]. apply Ok_inj in H.
        assert (F : Forall state_value (v :: vs)) by now apply FS.
        assert (~ is_array c) by (intros [? ->]; discriminate). assert (is_statelist c) by (exists l; now rewrite <- H).
        assert (~ is_list c) by (intros [? ->]; discriminate). tauto.
      * apply Ok_inj in H. assert (F : ~ Forall state_value (v :: vs)) by (intros Z; apply FS in Z; discriminate).
        assert (~ is_array c) by (intros [? ->]; discriminate). assert (is_list c) by (exists (v :: vs); now rewrite <- H).
        assert (~ is_statelist c) by (intros [? ->]; discriminate). tauto.
Qed.
(** when the conversion raises *)
Lemma convert_ok (vs : list V) :
  (Forall array_value vs -> forall a b, In (XArr a) vs -> In (XArr b) vs -> nd_shape a = nd_shape b) ->
  (Forall state_value vs -> exists l, vs = map XState l /\ on_first_grid l) ->
  exists c, convert_sequence vs = Ok c.
Proof.
  intros HA HS. unfold convert_sequence. destruct (all_arrays_spec vs) as [AA _]. destruct (all_arrays vs) as [as_|].
  - specialize (AA _ eq_refl). subst vs. assert (F : Forall array_value (map (@XArr K E O) as_)).
    { apply Forall_forall. intros x Hx. apply in_map_iff in Hx. destruct Hx as [b [<- _]]. now exists b. }
    specialize (HA F). destruct as_ as [|a as_]; [cbn; eauto|]. unfold np_stack.
    replace (forallb _ _) with true; [cbn; eauto|]. symmetry. apply forallb_forall. intros b Hb. apply shape_eqb_spec.
    apply HA; apply in_map; [now left|exact Hb].
  - destruct (all_numbers vs); [eauto|]. destruct (forallb is_state vs) eqn:FS; [|eauto].
    destruct HS as [l [-> F]].
    + apply Forall_forall. intros x Hx. rewrite forallb_forall in FS. specialize (FS x Hx). destruct x; try discriminate. now exists s.
    + assert (M : mk_statelist (map (@XState K E O) l) = Ok l) by (apply mk_accepts; auto). rewrite M. cbn. eauto.
Qed.
Lemma convert_unequal_shapes (vs : list V) a b : Forall array_value vs -> In (XArr a) vs -> In (XArr b) vs ->
  nd_shape a <> nd_shape b -> convert_sequence vs = Err ValueError.
Proof.
  intros F Ha Hb N. unfold convert_sequence. destruct (all_arrays_spec vs) as [AA NA]. destruct (all_arrays vs) as [as_|].
  - specialize (AA _ eq_refl). subst vs. apply in_map_iff in Ha, Hb. destruct Ha as [? [[= ->] Ha]], Hb as [? [[= ->] Hb]].
    destruct as_ as [|a0 as_]; [destruct Ha|]. unfold np_stack.
    destruct (forallb _ _) eqn:FB; [|reflexivity]. rewrite forallb_forall in FB. pose proof (FB a Ha) as Qa. pose proof (FB b Hb) as Qb.
    apply shape_eqb_spec in Qa, Qb. congruence.
  - destruct (NA eq_refl) as [x [Hx Nx]]. rewrite Forall_forall in F. destruct (Nx (F x Hx)).
Qed.
End Values.

(** ** Running every state *)
Section RunAll.
Context {K : numtype} (T : sphfam) (M : bmodel K) (fuel : nat) (dt tend se : pyval K).
Lemma run_all_spec l : forall al st,
  sl_run_all T M fuel dt tend se l al st =
  do rs <- res_map (fun s => run T M fuel s dt tend se) l; Ok (al ++ map fst rs, st ++ map snd rs).
Proof.
  induction l as [|s l IH]; intros al st; cbn [sl_run_all res_map bind].
  - cbn [map]. now rewrite !app_nil_r.
  - destruct (run T M fuel s dt tend se) as [[f r]|e]; cbn [bind]; [|reflexivity]. rewrite IH.
    destruct (res_map _ l); cbn [bind]; [|reflexivity]. cbn [map fst snd]. now rewrite <- !app_assoc.
Qed.
Lemma run_grid s f r : run T M fuel s dt tend se = Ok (f, r) -> s_grid f = s_grid s.
Proof.
  intros H. apply run_sound in H. destruct H as [[_ [-> _]]|[_ [N [[new H] _]]]]; [reflexivity|]. now apply steps_grid in H.
Qed.
Lemma run_all_grids l rs : Forall2 (fun s p => run T M fuel s dt tend se = Ok p) l rs ->
  map s_grid (map fst rs) = map s_grid l.
Proof.
  induction 1 as [|s [f r] l rs H F IH]; [reflexivity|]. cbn [map fst]. rewrite IH. f_equal. eapply run_grid, H.
Qed.
Lemma on_first_map (a b : list (state K)) : map s_grid a = map s_grid b -> on_first_grid a -> on_first_grid b.
Proof.
  intros E F s0 H0 s Hs. destruct b as [|b0 b]; [discriminate|]. injection H0 as ->. destruct a as [|a0 a]; [discriminate|].
  cbn [map] in E. pose proof E as E'. injection E' as E0 _. rewrite <- E0.
  assert (In (s_grid s) (map s_grid (a0 :: a))) as I.
  { cbn [map]. rewrite E. apply (in_map s_grid) in Hs. exact Hs. }
  apply in_map_iff in I. destruct I as [x [Ex Ix]]. rewrite <- Ex. apply (F a0 eq_refl x Ix).
Qed.
Lemma sl_run_spec l : on_first_grid l ->
  sl_run T M fuel dt tend se l =
  do rs <- res_map (fun s => run T M fuel s dt tend se) l; Ok (map fst rs, map snd rs).
Proof.
  intros F. unfold sl_run. rewrite run_all_spec. destruct (res_map _ l) as [rs|] eqn:HR; cbn [bind]; [|reflexivity].
  apply res_map_ok in HR. cbn [app].
  assert (Q : mk_statelist (E := R) (O := unit) (map XState (map fst rs)) = Ok (map fst rs)).
  { apply mk_accepts. split; [reflexivity|]. apply (on_first_map l); [|exact F]. symmetry. now apply run_all_grids. }
  now rewrite Q.
Qed.
End RunAll.
