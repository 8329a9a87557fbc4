(** Collections of states (C52-C55). *)
From Coq Require Export String.
From Verif Require Import Base Model_Grid Model_Time Model_Spectral Model_State Model_Run Model_StateList.
From Verif Require Import Spec_Run Spec_Instance Spec_StateList Proofs_Base Proofs_Grid Proofs_Run Proofs_StateList Props_Run.
From Coq Require Import List Lia Lra.
Open Scope R_scope.

(** C52 *)
Theorem C52_statelist_accepts_partial : forall K E O (l : list (value K E O)) r,
  mk_statelist l = Ok r <-> l = map XState r /\ on_first_grid r.
Proof. intros. apply mk_accepts. Qed.
Print Assumptions C52_statelist_accepts_partial.

Theorem C52_statelist_type_error : forall K E O (l : list (value K E O)),
  mk_statelist l = Err TypeError <-> first_bad_is not_a_state l.
Proof. intros. apply mk_type. Qed.
Print Assumptions C52_statelist_type_error.

Theorem C52_statelist_assertion_error : forall K E O (l : list (value K E O)),
  mk_statelist l = Err AssertionError <->
  exists first good s rest, l = map XState (first :: good) ++ XState s :: rest /\ on_first_grid (first :: good)
  /\ grid_eqb (s_grid first) (s_grid s) = false.
Proof. intros. apply mk_assert. Qed.
Print Assumptions C52_statelist_assertion_error.

Theorem C52_statelist_no_other_outcome : forall K E O (l : list (value K E O)),
  (exists r, mk_statelist l = Ok r) \/ mk_statelist l = Err TypeError \/ mk_statelist l = Err AssertionError.
Proof. intros. apply mk_outcomes. Qed.
Print Assumptions C52_statelist_no_other_outcome.

(** states on three grids that differ by the tolerance of Grid.__eq__ *)
Definition on_radius (rs : R) : state numR := mkState (gridA rs) (@VNum numR 0) nil.
Definition three_radii : list (state numR) := [on_radius (1 + / 100000); on_radius 1; on_radius (1 + 2 / 100000)].
Lemma three_radii_ok : on_first_grid three_radii /\ grid_eqb (gridA 1) (gridA (1 + 2 / 100000)) = false.
Proof.
  split.
  - intros s0 [= <-] s [<-|[<-|[<-|[]]]]; cbn [on_radius s_grid]; rewrite gridA_eqb.
    + apply isclose_refl.
    + apply isclose_pos'; lra.
    + apply isclose_pos; lra.
  - rewrite gridA_eqb. apply not_true_is_false. rewrite isclose_pos by lra. lra.
Qed.
(** "pairwise equal grids" is false: only the grid of the first state is compared *)
Theorem C52_pairwise_equal_grids_refuted :
  exists l : list (state numR), Forall (fun s => exists rs, 0 < rs /\ mk_grid 90 rs 0 None = Ok (s_grid s)) l
  /\ mk_statelist (E := R) (O := unit) (map XState l) = Ok l /\ ~ pairwise_equal_grids l.
Proof.
  exists three_radii. split.
  - repeat constructor; eexists; (split; [|apply gridA_ok]); lra.
  - destruct three_radii_ok as [H1 H2]. split; [apply mk_accepts; auto|]. intros P.
    assert (Q := P (on_radius 1) (on_radius (1 + 2 / 100000)) ltac:(cbn; auto) ltac:(cbn; auto)). cbn [s_grid on_radius] in Q. congruence.
Qed.
Print Assumptions C52_pairwise_equal_grids_refuted.

Example C52_example :
  mk_statelist (E := R) (O := unit) [XState example_init; XState example_init] = Ok [example_init; example_init]
  /\ mk_statelist (O := unit) [XState example_init; XNum 1; XState example_init] = Err TypeError
  /\ mk_statelist (E := R) (O := unit) [XState (on_radius 1); XState (on_radius 2)] = Err AssertionError.
Proof.
  split; [|split].
  - unfold mk_statelist, sl_check, passert. now rewrite grid_eqb_refl.
  - unfold mk_statelist, sl_check, passert. now rewrite grid_eqb_refl.
  - apply C52_statelist_assertion_error. exists (on_radius 1), nil, (on_radius 2), nil. split; [reflexivity|]. split.
    + intros s0 [= <-] s [<-|[]]. apply grid_eqb_refl.
    + cbn [on_radius s_grid]. rewrite gridA_eqb. apply not_true_is_false. rewrite isclose_pos by lra. lra.
Qed.

(** C53 *)
Theorem C53_indexing : forall K (l : list (state K)),
  (forall i s, nth_error l i = Some s ->
     sl_getitem l (SInt (Z.of_nat i)) = Ok (OneState s)
     /\ sl_getitem l (SInt (Z.of_nat i - Z.of_nat (length l))) = Ok (OneState s))
  /\ (forall i, (i < - Z.of_nat (length l) \/ Z.of_nat (length l) <= i)%Z -> sl_getitem l (SInt i) = Err IndexError).
Proof.
  intros K l. split; [|apply getitem_outside]. intros i s H. split; [now apply getitem_nonneg|now apply getitem_negative].
Qed.
Print Assumptions C53_indexing.

(** slices have the right elements, in a tuple *)
Theorem C53_slices_partial : forall K (l : list (state K)),
  (forall a b, (a <= b <= length l)%nat ->
     sl_getitem l (SSlice (Some (Z.of_nat a)) (Some (Z.of_nat b)) None) = Ok (ATuple (firstn (b - a) (skipn a l))))
  /\ sl_getitem l (SSlice None None None) = Ok (ATuple l)
  /\ sl_getitem l (SSlice None None (Some (-1)%Z)) = Ok (ATuple (rev l))
  /\ (forall start stop step, step <> Some 0%Z -> exists t, sl_getitem l (SSlice start stop step) = Ok (ATuple t) /\ incl t l)
  /\ (forall start stop, sl_getitem l (SSlice start stop (Some 0%Z)) = Err ValueError).
Proof.
  intros K l. split; [intros; now apply slice_plain|]. split; [apply slice_all|]. split; [apply slice_reverse|]. split; [|reflexivity].
  intros start stop step N. destruct (getitem_slice l start stop step) as [t [H F]].
  - destruct step as [k|]; [|discriminate]. intros ->. now apply N.
  - exists t. split; [exact H|]. clear H. induction F as [|j s q t Hs F IH]; [intros x []|].
    intros x [<-|Hx]; [eapply nth_error_In, Hs|now apply IH].
Qed.
Print Assumptions C53_slices_partial.

(** which states, in which order, for all bounds and steps *)
Theorem C53_slice_positions : forall K (l : list (state K)) start stop step,
  let k := match step with Some k => k | None => 1%Z end in k <> 0%Z ->
  exists ps t, sl_getitem l (SSlice start stop step) = Ok (ATuple t) /\ Forall2 (fun p s => nth_error l (Z.to_nat p) = Some s) ps t
  /\ in_order k ps /\ forall p, In p ps <-> in_slice (Z.of_nat (length l)) start stop k p.
Proof. intros K l start stop step k N. exact (getitem_positions l start stop step N). Qed.
Print Assumptions C53_slice_positions.
Example C53_slice_example : forall p, (p = 4 \/ p = 2)%Z <-> in_slice 5 (Some (-1)%Z) (Some (-5)%Z) (-2) p.
Proof.
  intros p. unfold in_slice, from_end. cbn [Z.ltb Z.compare Z.add Z.min]. split.
  - intros [->| ->]; (split; [lia|]); (split; [cbn; lia|]); (split; [|intros i [= <-]; cbn; lia]); [exists 0%Z|exists 1%Z]; reflexivity.
  - intros [R [P [[k Ek] Q]]]. specialize (Q _ eq_refl). cbn in *. lia.
Qed.

(** "every operation that selects several states returns a StateList" is false *)
Theorem C53_slice_is_no_statelist_refuted : forall K (l : list (state K)) start stop step r,
  sl_getitem l (SSlice start stop step) <> Ok (SomeStateList r).
Proof.
  intros K l start stop step r. unfold sl_getitem. destruct (_ =? 0)%Z; [discriminate|].
  destruct (slice_range _ _ _ _) as [a c]. destruct (nth_errors _ _); discriminate.
Qed.
Print Assumptions C53_slice_is_no_statelist_refuted.

Theorem C53_concatenation : forall K E O (a : list (state K)) (b : list (value K E O)) r,
  sl_add a b = Ok r <-> exists b', b = map XState b' /\ r = a ++ b' /\ on_first_grid (a ++ b').
Proof. intros. apply add_ok. Qed.
Print Assumptions C53_concatenation.

Theorem C53_identity : forall K E O (a : list (state K)), mk_statelist (map (@XState K E O) a) = Ok a ->
  sl_add a (@nil (value K E O)) = Ok a /\ sl_add nil (map (@XState K E O) a) = Ok a.
Proof.
  intros K E O a H. apply mk_accepts in H. destruct H as [_ H]. split; apply add_ok.
  - exists nil. rewrite app_nil_r. auto.
  - exists a. auto.
Qed.
Print Assumptions C53_identity.

(** whenever both ways of adding three lists succeed they agree, and both do on pairwise equal grids *)
Theorem C53_associative_partial : forall K E O (a b c : list (state K)),
  (forall ab bc r r', sl_add a (map (@XState K E O) b) = Ok ab -> sl_add b (map (@XState K E O) c) = Ok bc ->
     sl_add ab (map (@XState K E O) c) = Ok r -> sl_add a (map (@XState K E O) bc) = Ok r' -> r = r')
  /\ (pairwise_equal_grids (a ++ b ++ c) -> exists ab bc,
       sl_add a (map (@XState K E O) b) = Ok ab /\ sl_add b (map (@XState K E O) c) = Ok bc
       /\ sl_add ab (map (@XState K E O) c) = Ok (a ++ b ++ c) /\ sl_add a (map (@XState K E O) bc) = Ok (a ++ b ++ c)).
Proof.
  intros K E O a b c. split.
  - intros ab bc r r' H1 H2 H3 H4. apply add_ok in H1, H2, H3, H4.
    destruct H1 as [x1 [E1 [-> _]]], H2 as [x2 [E2 [-> _]]], H3 as [x3 [E3 [-> _]]], H4 as [x4 [E4 [-> _]]].
    apply XState_map in E1, E2, E3, E4. subst. now rewrite app_assoc.
  - intros P. assert (S : forall l, incl l (a ++ b ++ c) -> on_first_grid l).
    { intros l I. apply pairwise_on_first. intros x y Hx Hy. apply P; now apply I. }
    exists (a ++ b), (b ++ c). split; [|split; [|split]]; apply add_ok.
    + exists b. split; [reflexivity|]. split; [reflexivity|]. apply S. intros x Hx. apply in_app_or in Hx. rewrite !in_app_iff. tauto.
    + exists c. split; [reflexivity|]. split; [reflexivity|]. apply S. intros x Hx. apply in_app_or in Hx. rewrite !in_app_iff. tauto.
    + exists c. split; [reflexivity|]. rewrite app_assoc. split; [reflexivity|]. rewrite <- app_assoc. apply S. apply incl_refl.
    + exists (b ++ c). split; [reflexivity|]. split; [reflexivity|]. apply S. apply incl_refl.
Qed.
Print Assumptions C53_associative_partial.

(** in general one way can raise while the other does not *)
Theorem C53_associative_refuted :
  exists a b c : list (state numR),
  (exists ab r, sl_add a (map (@XState numR R unit) b) = Ok ab /\ sl_add ab (map (@XState numR R unit) c) = Ok r)
  /\ sl_add b (map (@XState numR R unit) c) = Err AssertionError.
Proof.
  destruct three_radii_ok as [H1 H2].
  exists [on_radius (1 + / 100000)], [on_radius 1], [on_radius (1 + 2 / 100000)]. split.
  - exists [on_radius (1 + / 100000); on_radius 1], three_radii. split; apply add_ok.
    + exists [on_radius 1]. split; [reflexivity|]. split; [reflexivity|]. apply (on_first_app _ [on_radius (1 + 2 / 100000)]). exact H1.
    + exists [on_radius (1 + 2 / 100000)]. split; [reflexivity|]. split; [reflexivity|]. exact H1.
  - unfold sl_add. apply mk_assert. exists (on_radius 1), nil, (on_radius (1 + 2 / 100000)), nil. split; [reflexivity|]. split; [|exact H2].
    intros s0 [= <-] s [<-|[]]. apply grid_eqb_refl.
Qed.
Print Assumptions C53_associative_refuted.

Example C53_example :
  sl_getitem [example_init; on_radius 1; on_radius 2] (SInt (-1)) = Ok (OneState (on_radius 2))
  /\ sl_getitem [example_init; on_radius 1; on_radius 2] (SSlice (Some 1%Z) None (Some 1%Z)) = Ok (ATuple [on_radius 1; on_radius 2])
  /\ sl_getitem [example_init; on_radius 1; on_radius 2] (SSlice None None (Some (-2)%Z)) = Ok (ATuple [on_radius 2; example_init])
  /\ pairwise_equal_grids ([example_init] ++ [example_init] ++ [example_init]).
Proof.
  split; [reflexivity|]. split; [reflexivity|]. split; [reflexivity|].
  intros x y [<-|[<-|[<-|[]]]] [<-|[<-|[<-|[]]]]; apply grid_eqb_refl.
Qed.

(** C54: the elements *)
Theorem C54_attribute_items : forall K E O A f (l : list (state K)) c, (forall s v, f s = Ok v -> proper v) ->
  sl_getattr (A := A) (@Attribute K E O A f) l = Broadcast (Ok c) ->
  container_length c (length l)
  /\ forall i s, nth_error l i = Some s -> exists v w, f s = Ok v /\ item c i w /\ same_value v w.
Proof.
  intros K E O A f l c P H. cbn in H. injection H as H. destruct (res_map f l) as [vs|] eqn:Hm; [|discriminate]. cbn in H.
  apply res_map_ok in Hm. assert (Pv : Forall proper vs).
  { clear H. induction Hm; constructor; eauto. }
  destruct (convert_items vs c Pv H) as [H1 H2]. pose proof (Forall2_len _ _ _ Hm) as L. rewrite L. split; [exact H1|].
  intros i s Hi. assert (V : exists v, nth_error vs i = Some v /\ f s = Ok v).
  { clear - Hm Hi. revert i Hi. induction Hm as [|x y l vs Hf F IH]; intros [|i] Hi; try discriminate.
    - injection Hi as <-. exists y. auto.
    - apply (IH i Hi). }
  destruct V as [v [Hv Hf]]. destruct (H2 i v Hv) as [w [Hw Hs]]. eauto 6.
Qed.
Print Assumptions C54_attribute_items.

Theorem C54_method_items : forall K E O A f (l : list (state K)) (args : A) c, (forall s v, f s args = Ok v -> proper v) ->
  forall call, sl_getattr (@Method K E O A f) l = Partial call -> call args = Ok c ->
  container_length c (length l)
  /\ forall i s, nth_error l i = Some s -> exists v w, f s args = Ok v /\ item c i w /\ same_value v w.
Proof.
  intros K E O A f l args c P call H Hc. cbn in H. injection H as <-.
  apply (C54_attribute_items K E O A (fun s => f s args) l c P). cbn. f_equal. exact Hc.
Qed.
Print Assumptions C54_method_items.

(** the container, for at least one state *)
Theorem C54_container_partial : forall K E O (f : state K -> res (value K E O)) (l : list (state K)) c, l <> nil ->
  sl_map f l = Ok c ->
  exists vs, Forall2 (fun s v => f s = Ok v) l vs
  /\ (is_array c <-> Forall array_value vs \/ Forall number_value vs)
  /\ (is_statelist c <-> Forall state_value vs)
  /\ (is_list c <-> ~ Forall array_value vs /\ ~ Forall number_value vs /\ ~ Forall state_value vs).
Proof.
  intros K E O f l c NE H. unfold sl_map in H. destruct (res_map f l) as [vs|] eqn:Hm; [|discriminate]. cbn in H.
  apply res_map_ok in Hm. exists vs. split; [exact Hm|]. apply convert_kind; [|exact H].
  intros ->. inversion Hm; subst. now apply NE.
Qed.
Print Assumptions C54_container_partial.

(** for no states at all the container is always an array, also for functions that return States or text *)
Theorem C54_empty_container_refuted : forall K E O (f : state K -> res (value K E O)),
  sl_map f nil = Ok (CArray (mkNd [0%nat] nil)).
Proof. reflexivity. Qed.
Print Assumptions C54_empty_container_refuted.

(** the collection succeeds unless the function raises, arrays differ in shape or States in grid *)
Theorem C54_collection_succeeds : forall K E O (f : state K -> res (value K E O)) (l : list (state K)) vs,
  Forall2 (fun s v => f s = Ok v) l vs ->
  (Forall array_value vs -> forall a b, In (XArr a) vs -> In (XArr b) vs -> nd_shape a = nd_shape b) ->
  (Forall state_value vs -> exists r, vs = map XState r /\ on_first_grid r) ->
  exists c, sl_map f l = Ok c.
Proof.
  intros K E O f l vs F HA HS. apply res_map_ok in F. unfold sl_map. rewrite F. cbn. now apply convert_ok.
Qed.
Print Assumptions C54_collection_succeeds.

(** arrays of different shape cannot be collected *)
Theorem C54_unequal_shapes : forall K E O (f : state K -> res (value K E O)) (l : list (state K)) vs a b,
  Forall2 (fun s v => f s = Ok v) l vs -> Forall array_value vs -> In (XArr a) vs -> In (XArr b) vs ->
  nd_shape a <> nd_shape b -> sl_map f l = Err ValueError.
Proof.
  intros K E O f l vs a b F FA Ha Hb N. apply res_map_ok in F. unfold sl_map. rewrite F. cbn. now apply (convert_unequal_shapes vs a b).
Qed.
Print Assumptions C54_unequal_shapes.

(** the grid attribute is shared rather than broadcast *)
Theorem C54_grid_attribute : forall K E O (l : list (state K)), mk_statelist (map (@XState K E O) l) = Ok l ->
  forall s, In s l -> exists g, sl_grid l = Some g /\ grid_eqb g (s_grid s) = true.
Proof.
  intros K E O l H s Hs. apply mk_accepts in H. destruct H as [_ H]. destruct l as [|s0 l]; [destruct Hs|].
  exists (s_grid s0). split; [reflexivity|]. now apply (H s0).
Qed.
Print Assumptions C54_grid_attribute.

Example C54_example :
  let pvs s : res (value numR R string) := Ok (XArr (mkNd [2%nat] [g_rsphere (s_grid (K := numR) s); 7])) in
  let text s : res (value numR R string) := Ok (XObj "text"%string) in
  (forall s v, pvs s = Ok v -> proper v)
  /\ sl_map pvs three_radii = Ok (CArray (mkNd [3%nat; 2%nat] [1 + / 100000; 7; 1; 7; 1 + 2 / 100000; 7]))
  /\ item (CArray (K := numR) (O := string) (mkNd [3%nat; 2%nat] [1 + / 100000; 7; 1; 7; 1 + 2 / 100000; 7])) 1 (XArr (mkNd [2%nat] [1; 7]))
  /\ sl_map text three_radii = Ok (CList [XObj "text"%string; XObj "text"%string; XObj "text"%string]).
Proof.
  cbv zeta. split; [intros s v H; apply Ok_inj in H; subst; reflexivity|]. split; [reflexivity|]. split; [|reflexivity].
  apply (item_array 3 [2%nat] [1 + / 100000; 7; 1; 7; 1 + 2 / 100000; 7] 1); [lia|discriminate].
Qed.

(** C55 *)
Theorem C55_run_each : forall K T (M : bmodel K) fuel dt tend se (l : list (state K)) E O,
  mk_statelist (map (@XState K E O) l) = Ok l ->
  forall lasts saved, sl_run T M fuel dt tend se l = Ok (lasts, saved) <->
  length lasts = length l /\ length saved = length l
  /\ forall i s, nth_error l i = Some s ->
     exists last sv, nth_error lasts i = Some last /\ nth_error saved i = Some sv /\ run T M fuel s dt tend se = Ok (last, sv).
Proof.
  intros K T M fuel dt tend se l E O H lasts saved. apply mk_accepts in H. destruct H as [_ H].
  rewrite (sl_run_spec T M fuel dt tend se l H). clear H. split.
  - intros Q. destruct (res_map _ l) as [rs|] eqn:Hm; [|discriminate]. cbn in Q. apply Ok_inj in Q. injection Q as <- <-.
    apply res_map_ok in Hm. rewrite !map_length. pose proof (Forall2_len _ _ _ Hm) as L. rewrite <- L. do 2 (split; [reflexivity|]).
    clear L. induction Hm as [|x [f r] l rs Hf F IH]; intros [|i] s Hi; try discriminate.
    + injection Hi as <-. exists f, r. auto.
    + apply (IH i s Hi).
  - intros [L1 [L2 Q]]. replace (res_map _ l) with (Ok (combine lasts saved)).
    + cbn. f_equal. f_equal; clear -L1 L2; revert lasts saved L1 L2; induction l as [|s l IH]; intros [|a x] [|b y] L1 L2; try discriminate; try reflexivity;
        cbn [combine map fst snd]; f_equal; apply IH; cbn in L1, L2; lia.
    + symmetry. apply res_map_ok. revert lasts saved L1 L2 Q. induction l as [|s l IH]; intros [|a x] [|b y] L1 L2 Q; try discriminate; [constructor|].
      cbn [combine]. constructor.
      * destruct (Q 0%nat s eq_refl) as [la [sv [H1 [H2 H3]]]]. cbn in H1, H2. congruence.
      * apply IH; [cbn in L1; lia|cbn in L2; lia|]. intros i s' Hi. apply (Q (S i) s' Hi).
Qed.
Print Assumptions C55_run_each.

(** an exception comes from the first state whose integration raises *)
Theorem C55_run_raises : forall K T (M : bmodel K) fuel dt tend se (l : list (state K)) E O e,
  mk_statelist (map (@XState K E O) l) = Ok l ->
  (sl_run T M fuel dt tend se l = Err e <->
   exists before s after, l = before ++ s :: after /\ run T M fuel s dt tend se = Err e
   /\ forall b, In b before -> exists r, run T M fuel b dt tend se = Ok r).
Proof.
  intros K T M fuel dt tend se l E O e H. apply mk_accepts in H. destruct H as [_ H].
  rewrite (sl_run_spec T M fuel dt tend se l H). clear H.
  transitivity (res_map (fun s => run T M fuel s dt tend se) l = Err e).
  { destruct (res_map _ l); cbn; split; intros Q; try discriminate; congruence. }
  induction l as [|s l IH]; cbn [res_map].
  - split; [discriminate|]. intros [[|? ?] [x [after [Q _]]]]; discriminate.
  - destruct (run T M fuel s dt tend se) as [p|e'] eqn:Hr; cbn [bind].
    + transitivity (res_map (fun s => run T M fuel s dt tend se) l = Err e).
      { destruct (res_map _ l); cbn; split; intros Q; try discriminate; congruence. }
      rewrite IH. split.
      * intros [b [x [a [-> [H1 H2]]]]]. exists (s :: b), x, a. split; [reflexivity|]. split; [exact H1|].
        intros y [<-|Hy]; eauto.
      * intros [[|b0 b] [x [a [Q [H1 H2]]]]]; cbn in Q; injection Q as -> ->; [congruence|].
        exists b, x, a. split; [reflexivity|]. split; [exact H1|]. intros y Hy. apply H2. now right.
    + split.
      * intros Q. exists nil, s, l. split; [reflexivity|]. split; [congruence|]. intros b [].
      * intros [[|b0 b] [x [a [Q [H1 H2]]]]]; cbn in Q; injection Q as -> ->; [congruence|].
        destruct (H2 b0 (or_introl eq_refl)). congruence.
Qed.
Print Assumptions C55_run_raises.

Example C55_example : mk_statelist (E := R) (O := unit) (map XState [example_init; example_init]) = Ok [example_init; example_init]
  /\ exists fuel f l, sl_run d1_family example_model fuel (@VNum numR 7) (@VNum numR 120) (@VNum numR 10) [example_init; example_init]
     = Ok ([f; f], [AStateList l; AStateList l]).
Proof.
  assert (A : mk_statelist (E := R) (O := unit) (map XState [example_init; example_init]) = Ok [example_init; example_init]) by apply C52_example.
  split; [exact A|]. destruct C33_nonvacuous as [fuel [f [l [_ [_ [H _]]]]]]. exists fuel, f, l.
  apply (proj2 (C55_run_each _ _ _ _ _ _ _ _ _ _ A _ _)). split; [reflexivity|]. split; [reflexivity|].
  intros [|[|[|i]]] s [= <-]; exists f, (AStateList l); auto.
Qed.
