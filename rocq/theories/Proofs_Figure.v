(** Figures: proofs. *)
From Coq Require Export String.
From Verif Require Import Base Spec_Figure Model_Grid Model_State Model_Plot Model_Figure Proofs_Base Proofs_Grid Proofs_Plot.
From Verif Require Import Model_Region.
From Coq Require Import List Lia Lra.
Open Scope R_scope.

Lemma at2_shaped {A} (d : A) nr nc m i k c : shaped nr nc m -> (at2 m i k = Some c <-> (i < nr)%nat /\ (k < nc)%nat /\ nth k (nth i m []) d = c).
Proof.
  intros S. unfold at2. split.
  - destruct (nth_error m i) as [r|] eqn:E; [|discriminate]. intros E2.
    assert (Hi : (i < nr)%nat) by (rewrite <- (proj1 S); apply nth_error_Some; congruence).
    apply (nth_error_nth _ _ []) in E. subst r. assert (Hk : (k < nc)%nat) by (rewrite <- (shaped_row nr nc m i [] S Hi); apply nth_error_Some; congruence).
    split; [exact Hi|]. split; [exact Hk|]. now apply nth_error_nth.
  - intros [Hi [Hk <-]]. rewrite (nth_error_nth' m []) by (rewrite (proj1 S); exact Hi). apply nth_error_nth'. rewrite (shaped_row nr nc m i [] S Hi). exact Hk.
Qed.
Lemma nth_error_val {A} (d : A) l i c : nth_error l i = Some c <-> (i < length l)%nat /\ nth i l d = c.
Proof.
  split.
  - intros E. split; [apply nth_error_Some; congruence|now apply nth_error_nth].
  - intros [H <-]. now apply nth_error_nth'.
Qed.
Lemma lon2_shaped g : shaped (g_nlat g) (g_nlon g) (g_lon2 g).
Proof.
  unfold g_lon2. split; [rewrite map_length; apply lat_length|]. apply Forall_forall. intros r Hr. apply in_map_iff in Hr as [y [<- _]]. apply lon_length.
Qed.
Lemma lon2_get g i k : (i < g_nlat g)%nat -> nth k (nth i (g_lon2 g) []) 0 = nth k (g_lon g) 0.
Proof. intros Hi. unfold g_lon2. now rewrite (nth_map_lt _ _ _ 0 _) by now rewrite lat_length. Qed.
Lemma lat2_get g i k : (i < g_nlat g)%nat -> (k < g_nlon g)%nat -> nth k (nth i (g_lat2 g) []) 0 = nth i (g_lat g) 0.
Proof. intros Hi Hk. unfold g_lat2. rewrite (nth_map_lt _ _ _ 0 _) by now rewrite lat_length. now rewrite (nth_map_lt _ _ _ 0 _) by now rewrite lon_length. Qed.
Lemma label_meridian offset x l : lon_label offset x = l -> same_meridian offset x l.
Proof. intros <-. unfold lon_label, same_meridian. apply rmod_split. Qed.
Lemma shaped_roll {A} (d : A) s nr nc q : shaped nr nc q -> shaped nr nc (map (zroll d s) q).
Proof.
  intros [L F]. split; [now rewrite map_length|]. apply Forall_map. eapply Forall_impl; [|exact F]. intros r Hr. cbv beta in *. now rewrite zroll_length.
Qed.
Lemma roll_at {A} (d : A) s nr nc q i k : shaped nr nc q -> (i < nr)%nat -> (k < nc)%nat ->
  nth k (nth i (map (zroll d s) q) []) d = nth (Z.to_nat ((Z.of_nat k - s) mod Z.of_nat nc)) (nth i q []) d.
Proof.
  intros S Hi Hk. rewrite (nth_map_lt _ _ _ [] _) by (rewrite (proj1 S); exact Hi). pose proof (shaped_row nr nc q i [] S Hi) as L.
  rewrite zroll_nth by (rewrite L; exact Hk). now rewrite L.
Qed.

(** a field rolled along longitude, at the unchanged grid coordinates *)
Lemma rolled_map {A} (d : A) g center q : (0 < g_nlon g)%nat -> shaped (g_nlat g) (g_nlon g) q ->
  map_of (py_nth (g_lon g) (roll_shift (g_lon g) center)) (g_lon g) (g_lat g) (g_lon2 g) (g_lat2 g) (map (zroll d (roll_shift (g_lon g) center)) q) q.
Proof.
  intros N S. set (s := roll_shift (g_lon g) center). pose proof (shaped_roll d s _ _ q S) as Sr. pose proof (lon2_shaped g) as Sx. pose proof (lat2_shaped g) as Sy. split.
  - intros i k a b c Ha Hb Hc.
    apply (at2_shaped 0 _ _ _ _ _ _ Sx) in Ha as [Hi [Hk <-]]. apply (at2_shaped 0 _ _ _ _ _ _ Sy) in Hb as [_ [_ <-]]. apply (at2_shaped d _ _ _ _ _ _ Sr) in Hc as [_ [_ <-]].
    set (j := Z.to_nat ((Z.of_nat k - s) mod Z.of_nat (g_nlon g))).
    assert (Hj : (j < g_nlon g)%nat) by (pose proof (Z.mod_pos_bound (Z.of_nat k - s) (Z.of_nat (g_nlon g)) ltac:(lia)); unfold j; lia).
    exists i, j, (nth j (g_lon g) 0). split; [apply (nth_error_val 0); rewrite lat_length, lat2_get by assumption; auto|].
    split; [apply (nth_error_val 0); rewrite lon_length; auto|]. split.
    + apply label_meridian. rewrite lon2_get by exact Hi. now apply label_true.
    + apply (at2_shaped d _ _ _ _ _ _ S). split; [exact Hi|]. split; [exact Hj|]. symmetry. now apply (roll_at d s (g_nlat g)).
  - intros i j b l c Hb Hl Hc. apply (nth_error_val 0) in Hb as [Hi <-]. apply (nth_error_val 0) in Hl as [Hj <-]. rewrite lat_length in Hi. rewrite lon_length in Hj.
    apply (at2_shaped d _ _ _ _ _ _ S) in Hc as [_ [_ <-]].
    set (k := Z.to_nat ((Z.of_nat j + s) mod Z.of_nat (g_nlon g))).
    pose proof (Z.mod_pos_bound (Z.of_nat j + s) (Z.of_nat (g_nlon g)) ltac:(lia)) as B.
    assert (Hk : (k < g_nlon g)%nat) by (unfold k; lia).
    assert (Ej : Z.to_nat ((Z.of_nat k - s) mod Z.of_nat (g_nlon g)) = j).
    { unfold k. rewrite Z2Nat.id by lia. rewrite Zminus_mod_idemp_l. replace (Z.of_nat j + s - s)%Z with (Z.of_nat j) by lia. rewrite Z.mod_small by lia. apply Nat2Z.id. }
    exists i, k, (nth k (g_lon g) 0). split; [apply (at2_shaped 0 _ _ _ _ _ _ Sx); rewrite lon2_get by exact Hi; auto|].
    split; [apply (at2_shaped 0 _ _ _ _ _ _ Sy); rewrite lat2_get by assumption; auto|]. split.
    + apply (at2_shaped d _ _ _ _ _ _ Sr). split; [exact Hi|]. split; [exact Hk|]. rewrite (roll_at d s (g_nlat g) (g_nlon g)) by assumption. now rewrite Ej.
    + apply label_meridian. etransitivity; [exact (label_true g center N k Hk)|]. fold s. now rewrite Ej.
Qed.
Lemma some2_shaped nr nc m : shaped nr nc m -> shaped nr nc (some2 m).
Proof. intros [L F]. split; [unfold some2; now rewrite map_length|]. apply Forall_map. eapply Forall_impl; [|exact F]. intros r Hr. cbv beta in *. now rewrite map_length. Qed.
Lemma some2_roll s m : some2 (map (zroll 0 s) m) = map (zroll None s) (some2 m).
Proof.
  unfold some2. rewrite !map_map. apply map_ext. intros r. unfold zroll. rewrite tab_map, map_length. apply tab_ext. intros i Hi.
  symmetry. apply (nth_map_lt Some). pose proof (Z.mod_pos_bound (Z.of_nat i - s) (Z.of_nat (length r)) ltac:(lia)). lia.
Qed.
Lemma rolled_some g center m : (0 < g_nlon g)%nat -> shaped (g_nlat g) (g_nlon g) m ->
  map_of (snd (roll_lon (g_lon g) center)) (g_lon g) (g_lat g) (g_lon2 g) (g_lat2 g) (some2 (fst (roll_lon (g_lon g) center) m)) (some2 m).
Proof. intros N S. unfold roll_lon. cbn [fst snd]. rewrite some2_roll. apply (rolled_map None); [exact N|now apply some2_shaped]. Qed.

Lemma contour_ok f x y z l d : contour f x y z l = Ok d -> d = [DContour f x y z l].
Proof.
  unfold contour. destruct (shapedb _ _ _); [|discriminate]. destruct l as [l|]; [|congruence]. destruct (_ || _); [discriminate|congruence].
Qed.
Lemma contour_accepts f x y z l : shapedb (length x) (ncols x) z = true -> (2 <= length l)%nat -> levels_increase l = true -> contour f x y z (Some l) = Ok [DContour f x y z (Some l)].
Proof.
  intros S L I. unfold contour. rewrite S, I. replace (length l <? 2) with false by (symmetry; apply Nat.ltb_ge; exact L). now rewrite andb_false_r.
Qed.
Lemma shape_lon2 {A} g (z : list (list A)) : (0 < g_nlat g)%nat -> shaped (g_nlat g) (g_nlon g) z -> shapedb (length (g_lon2 g)) (ncols (g_lon2 g)) z = true.
Proof. intros N S. apply shapedb_spec. rewrite (proj1 (lon2_shaped g)), (shaped_ncols _ _ _ (lon2_shaped g) N). exact S. Qed.
Lemma increasing_spec l : levels_increase l = true <-> forall i, (S i < length l)%nat -> nth i l 0 < nth (S i) l 0.
Proof.
  unfold levels_increase. rewrite forallb_forall. split.
  - intros H i Hi. specialize (H (nth i l 0, nth (S i) l 0)). cbn [fst snd] in H. apply Rltb_true, H.
    rewrite <- (pairs_nth l i 0) by lia. apply nth_In. rewrite pairs_length. lia.
  - intros H p Hp. apply (In_nth _ _ (0, 0)) in Hp as [i [Hi <-]]. rewrite pairs_length in Hi. rewrite (pairs_nth l i 0) by lia. cbn [fst snd]. apply Rltb_true, H. lia.
Qed.

(** ** levels *)
Lemma span_get a b n i : (i < n)%nat -> nth i (linspace_end a b n) 0 = a + INR i * ((b - a) / INR (n - 1)).
Proof. intros H. unfold linspace_end. now rewrite tab_nth. Qed.
Lemma span_length a b n : length (linspace_end a b n) = n.
Proof. apply tab_length. Qed.
Lemma span_increases a b n : a < b -> levels_increase (linspace_end a b n) = true.
Proof.
  intros H. apply increasing_spec. intros i Hi. rewrite span_length in Hi. rewrite !span_get by lia. rewrite S_INR.
  assert (0 < INR (n - 1)) by (apply lt_0_INR; lia). assert (0 < (b - a) / INR (n - 1)) by (apply Rdiv_lt_0_compat; lra). lra.
Qed.
Lemma span_not_increasing a b n : (2 <= n)%nat -> b <= a -> levels_increase (linspace_end a b n) = false.
Proof.
  intros N H. destruct (levels_increase _) eqn:E; [|reflexivity]. exfalso. pose proof (proj1 (increasing_spec _) E 0%nat) as Q. rewrite span_length in Q. specialize (Q ltac:(lia)).
  rewrite !span_get in Q by lia. cbn [INR] in Q. assert (P : 0 < INR (n - 1)) by (apply lt_0_INR; lia).
  assert (0 <= (a - b) / INR (n - 1)) by (apply Rmult_le_pos; [lra|left; now apply Rinv_0_lt_compat]). replace ((b - a) / INR (n - 1)) with (- ((a - b) / INR (n - 1))) in Q by (field; lra). lra.
Qed.
Lemma span_first a b n : (2 <= n)%nat -> nth 0 (linspace_end a b n) 0 = a.
Proof. intros N. rewrite span_get by lia. cbn. lra. Qed.
Lemma last_is_nth {A} (l : list A) d : last l d = nth (length l - 1) l d.
Proof.
  induction l as [|x l IH]; [reflexivity|]. destruct l as [|y l]; [reflexivity|]. change (last (x :: y :: l) d) with (last (y :: l) d). rewrite IH. replace (length (x :: y :: l) - 1)%nat with (S (length (y :: l) - 1)) by (cbn [length]; lia). reflexivity.
Qed.
Lemma span_last a b n : (2 <= n)%nat -> last (linspace_end a b n) 0 = b.
Proof.
  intros N. rewrite last_is_nth, span_length, span_get by lia. assert (0 < INR (n - 1)) by (apply lt_0_INR; lia). field. lra.
Qed.
Lemma inner_length (l : vec) : length (removelast (tl l)) = (length l - 2)%nat.
Proof.
  destruct l as [|x l]; [reflexivity|]. cbn [tl length]. destruct l as [|y l]; [reflexivity|].
  pose proof (app_removelast_last 0 (ltac:(discriminate) : y :: l <> [])) as E. apply (f_equal (@length R)) in E. rewrite app_length in E. cbn [length] in *. lia.
Qed.
Lemma inner_nth (l : vec) i : (i < length l - 2)%nat -> nth i (removelast (tl l)) 0 = nth (S i) l 0.
Proof.
  intros H. destruct l as [|x l]; [cbn in H; lia|]. cbn [tl length nth] in *. destruct l as [|y l]; [cbn in H; lia|].
  pose proof (app_removelast_last 0 (ltac:(discriminate) : y :: l <> [])) as E. rewrite E at 2. rewrite app_nth1; [reflexivity|].
  apply (f_equal (@length R)) in E. rewrite app_length in E. cbn [length] in *. lia.
Qed.
Lemma inner_increases l : levels_increase l = true -> levels_increase (removelast (tl l)) = true.
Proof.
  rewrite !increasing_spec. intros H i Hi. rewrite inner_length in Hi. rewrite !inner_nth by lia. apply H. lia.
Qed.
