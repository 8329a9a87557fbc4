(** Filters: proofs. *)
From Coq Require Export String.
From Verif Require Import Base Model_Grid Model_Format Model_Filter Spec_Filter Proofs_Base Proofs_Trig Props_Format Props_Init.
From Verif Require Import Model_Region.
From Coq Require Import List Lia Lra.
Open Scope R_scope.

(** ** Windows *)
Definition shape_of (w : window_name) (h i : nat) : R :=
  match w with
  | Boxcar => 1
  | Triang => INR (Nat.min (i + 1) (2 * h + 1 - i)) / INR (h + 1)
  | Hann => match h with O => 1 | _ => sin (PI * INR i / INR (2 * h)) ^ 2 end
  end.
Definition total_of (w : window_name) (h : nat) : R :=
  match w with Boxcar => INR (2 * h + 1) | Triang => INR (h + 1) | Hann => match h with O => 1 | _ => INR h end end.

Lemma removelast_tab {A} n (f : nat -> A) : removelast (tab (S n) f) = tab n f.
Proof. rewrite tab_snoc. apply removelast_last. Qed.
Lemma triang_form h : triang_window (2 * h + 1) = tab (2 * h + 1) (shape_of Triang h).
Proof.
  unfold triang_window. replace ((2 * h + 1 + 1) / 2)%nat with (S h).
  2:{ symmetry. replace (2 * h + 1 + 1)%nat with ((h + 1) * 2)%nat by lia. rewrite Nat.div_mul by lia. lia. }
  cbv zeta. rewrite removelast_tab. apply (list_eq_nth 0); [rewrite app_length, rev_length, !tab_length; lia|].
  intros i Hi. rewrite app_length, rev_length, !tab_length in Hi. rewrite (tab_nth (2 * h + 1)) by lia. cbn [shape_of].
  assert (P : 0 < INR (h + 1)) by (apply lt_0_INR; lia).
  assert (Q : INR (2 * h + 1 + 1) = 2 * INR (h + 1)) by (replace (2 * h + 1 + 1)%nat with (2 * (h + 1))%nat by lia; rewrite mult_INR; reflexivity).
  destruct (Nat.lt_ge_cases i (S h)) as [L|L].
  - rewrite app_nth1, tab_nth by (rewrite ?tab_length; lia). rewrite Nat.min_l, Q by lia. field. lra.
  - rewrite app_nth2 by (rewrite tab_length; lia). rewrite tab_length. rewrite rev_nth by (rewrite tab_length; lia).
    rewrite tab_length, tab_nth by lia. rewrite Nat.min_r, Q by lia.
    replace (h - S (i - S h) + 1)%nat with (2 * h + 1 - i)%nat by lia. field. lra.
Qed.
Lemma hann_form h : hann_window (2 * h + 1) = tab (2 * h + 1) (shape_of Hann h).
Proof.
  destruct h as [|h]; [reflexivity|]. unfold hann_window. destruct (Nat.leb_spec (2 * S h + 1) 1) as [L|L]; [lia|].
  unfold linspace_end. rewrite tab_map. apply tab_ext. intros i Hi. cbn [shape_of].
  assert (P : 0 < INR (2 * S h)) by (apply lt_0_INR; lia).
  replace (2 * S h + 1 - 1)%nat with (2 * S h)%nat by lia.
  replace (- PI + INR i * ((PI - - PI) / INR (2 * S h))) with (2 * (PI * INR i / INR (2 * S h)) - PI) by (field; lra).
  rewrite cos_minus, cos_PI, sin_PI, cos_2a_sin. field.
Qed.
Lemma get_window_form w h : get_window w (Z.of_nat (2 * h + 1)) = Ok (tab (2 * h + 1) (shape_of w h)).
Proof.
  unfold get_window. destruct (Z.ltb_spec (Z.of_nat (2 * h + 1)) 0) as [L|L]; [lia|]. rewrite Nat2Z.id.
  destruct (Nat.leb_spec (2 * h + 1) 1) as [L'|L'].
  - assert (h = 0%nat) as -> by lia. f_equal. apply tab_ext. intros i Hi. assert (i = 0%nat) as -> by lia.
    destruct w; cbn; try reflexivity. lra.
  - f_equal. destruct w; [reflexivity|apply triang_form|apply hann_form].
Qed.
Lemma sum_upto n : Rsum (tab n (fun i => INR (i + 1))) = INR n * (INR n + 1) / 2.
Proof. induction n as [|n IH]; [cbn; lra|]. rewrite Rsum_tab_S, IH, S_INR, plus_INR. cbn. field. Qed.
Lemma shape_total w h : Rsum (tab (2 * h + 1) (shape_of w h)) = total_of w h.
Proof.
  destruct w; cbn [total_of].
  - rewrite (tab_ext _ _ (fun _ => 1)) by reflexivity. rewrite Rsum_tab_const. ring.
  - rewrite <- triang_form. unfold triang_window. replace ((2 * h + 1 + 1) / 2)%nat with (S h).
    2:{ symmetry. replace (2 * h + 1 + 1)%nat with ((h + 1) * 2)%nat by lia. rewrite Nat.div_mul by lia. lia. }
    cbv zeta. rewrite removelast_tab. rewrite Rsum_app, Rsum_rev.
    assert (P : 0 < INR (2 * h + 1 + 1)) by (apply lt_0_INR; lia).
    assert (E : forall n, Rsum (tab n (fun i => 2 * INR (i + 1) / INR (2 * h + 1 + 1))) = INR n * (INR n + 1) / INR (2 * h + 1 + 1)).
    { intros n. rewrite (tab_ext n _ (fun i => 2 / INR (2 * h + 1 + 1) * INR (i + 1))) by (intros; field; lra).
      rewrite Rsum_tab_scal, sum_upto. field. lra. }
    rewrite !E, S_INR. rewrite !plus_INR, mult_INR. cbn [INR]. pose proof (pos_INR h). field. lra.
  - destruct h as [|h]; [cbn; ring|].
    assert (P : 0 < INR (2 * S h)) by (apply lt_0_INR; lia).
    rewrite (tab_ext _ _ (fun i => 1 / 2 + - (1 / 2) * cos (ang (2 * S h) 1 i + 0))).
    2:{ intros i _. cbn [shape_of]. replace (ang (2 * S h) 1 i + 0) with (2 * (PI * INR i / INR (2 * S h))) by (unfold ang; field; lra).
        rewrite cos_2a_sin. field. }
    rewrite Rsum_tab_plus, Rsum_tab_scal, Rsum_tab_const. rewrite (Nat.add_1_r (2 * S h)), Rsum_tab_S.
    rewrite sum_cos_phase; [|lia|].
    2:{ intros [q Q]. assert (q = 0 \/ q <> 0)%Z as [->|] by lia; [lia|]. nia. }
    replace (ang (2 * S h) 1 (2 * S h) + 0) with (0 + 2 * PI * IZR 1) by (unfold ang; field; lra).
    rewrite cos_turns, cos_0. rewrite S_INR, mult_INR. cbn [INR]. field.
Qed.
Lemma total_pos w h : 0 < total_of w h.
Proof. destruct w; cbn [total_of]; [apply lt_0_INR; lia|apply lt_0_INR; lia|]. destruct h; [lra|apply lt_0_INR; lia]. Qed.
Lemma shape_nonneg w h i : 0 <= shape_of w h i.
Proof.
  destruct w; cbn [shape_of]; [lra| |].
  - apply Rmult_le_pos; [apply pos_INR|]. left. apply Rinv_0_lt_compat, lt_0_INR. lia.
  - destruct h; [lra|]. apply pow2_ge_0.
Qed.
Lemma shape_symmetric w h i : (i < 2 * h + 1)%nat -> shape_of w h (2 * h + 1 - 1 - i) = shape_of w h i.
Proof.
  intros Hi. destruct w; cbn [shape_of]; [reflexivity| |].
  - do 2 f_equal. lia.
  - destruct h as [|h]; [reflexivity|]. assert (P : 0 < INR (2 * S h)) by (apply lt_0_INR; lia).
    replace (2 * S h + 1 - 1 - i)%nat with (2 * S h - i)%nat by lia. rewrite minus_INR by lia.
    replace (PI * (INR (2 * S h) - INR i) / INR (2 * S h)) with (PI - PI * INR i / INR (2 * S h)) by (field; lra).
    now rewrite sin_PI_x.
Qed.
Definition weight_of (w : window_name) : nat -> nat -> R :=
  match w with Boxcar => boxcar_weight | Triang => triang_weight | Hann => hann_weight end.
Lemma weight_shape w h i : shape_of w h i / total_of w h = weight_of w h i.
Proof.
  pose proof (total_pos w h). destruct w; cbn [shape_of total_of weight_of] in *; [unfold boxcar_weight; reflexivity| |].
  - unfold triang_weight. field. lra.
  - unfold hann_weight. destruct h; [field|reflexivity].
Qed.
Lemma normalize_form w h : normalize (tab (2 * h + 1) (shape_of w h)) = tab (2 * h + 1) (weight_of w h).
Proof.
  unfold normalize. rewrite shape_total, tab_map. apply tab_ext. intros i _. apply weight_shape.
Qed.
Lemma weight_sum w h : Rsum (tab (2 * h + 1) (weight_of w h)) = 1.
Proof.
  rewrite (tab_ext _ _ (fun i => / total_of w h * shape_of w h i)) by (intros; rewrite <- weight_shape; unfold Rdiv; ring).
  rewrite Rsum_tab_scal, shape_total. pose proof (total_pos w h). field. lra.
Qed.
Lemma weight_nonneg w h i : 0 <= weight_of w h i.
Proof. rewrite <- weight_shape. apply Rmult_le_pos; [apply shape_nonneg|]. left. apply Rinv_0_lt_compat, total_pos. Qed.
Lemma weight_symmetric w h i : (i < 2 * h + 1)%nat -> weight_of w h (2 * h + 1 - 1 - i) = weight_of w h i.
Proof. intros H. rewrite <- !weight_shape. now rewrite shape_symmetric. Qed.

(** the number of points *)
Definition points (x : R) : Z := let m := round_even x in if (m mod 2 =? 1)%Z then m else (m + 1)%Z.
Lemma points_odd x : (points x mod 2 = 1)%Z.
Proof. unfold points. destruct (Z.eqb_spec (round_even x mod 2) 1) as [E|E]; [exact E|]. rewrite Z.add_mod by lia. pose proof (Z.mod_pos_bound (round_even x) 2). assert (round_even x mod 2 = 0)%Z as -> by lia. reflexivity. Qed.
Lemma points_close x : Rabs (IZR (points x) - x) <= 3 / 2.
Proof.
  unfold points. pose proof (round_even_close x) as H.
  assert (B : - (1 / 2) <= IZR (round_even x) - x <= 1 / 2) by (unfold Rabs in H; destruct (Rcase_abs _) in H; lra).
  destruct (Z.eqb _ _); [|rewrite plus_IZR]; apply Rabs_le; lra.
Qed.
Lemma points_nonneg x : (-1 <= points x)%Z -> exists h, points x = Z.of_nat (2 * h + 1) \/ points x = (-1)%Z.
Proof.
  intros H. pose proof (points_odd x) as O. pose proof (Z.div_mod (points x) 2 ltac:(lia)) as D. rewrite O in D.
  destruct (Z.eq_dec (points x) (-1)) as [E|E]; [exists 0%nat; now right|].
  exists (Z.to_nat (points x / 2)). left. lia.
Qed.
Lemma filter_window_form g w width h : points (width / g_dlon g) = Z.of_nat (2 * h + 1) ->
  get_filter_window g w width = Ok (tab (2 * h + 1) (weight_of w h)).
Proof.
  intros H. unfold get_filter_window. fold (points (width / g_dlon g)). rewrite H, get_window_form. cbn [bind]. now rewrite normalize_form.
Qed.
Lemma filter_window_neg g w width : (points (width / g_dlon g) < 0)%Z -> get_filter_window g w width = Err ValueError.
Proof.
  intros H. unfold get_filter_window. fold (points (width / g_dlon g)). unfold get_window.
  destruct (Z.ltb_spec (points (width / g_dlon g)) 0); [reflexivity|lia].
Qed.
Lemma points_cases x : (points x < 0)%Z \/ exists h, points x = Z.of_nat (2 * h + 1).
Proof.
  destruct (Z_lt_le_dec (points x) 0) as [L|L]; [now left|right]. destruct (points_nonneg x ltac:(lia)) as [h [H|H]]; [eauto|lia].
Qed.

(** ** Convolution *)
Section Convolve.
Variable mode : Z -> Z -> Z.
Hypothesis mode_range : forall n k, (0 < n)%Z -> (0 <= mode n k < n)%Z.
Lemma conv_length f w : length (convolve mode f w) = length f.
Proof. apply tab_length. Qed.
Lemma conv_nth f w i : (i < length f)%nat -> nth i (convolve mode f w) 0 =
  Rsum (tab (length w) (fun m => nth m w 0 * znth 0 f (mode (Z.of_nat (length f)) (Z.of_nat i + Z.of_nat (length w / 2) - Z.of_nat m)%Z))).
Proof. intros H. unfold convolve. now rewrite tab_nth. Qed.
Lemma znth_in {A} (d : A) l k : l <> nil -> In (znth d l (mode (Z.of_nat (length l)) k)) l.
Proof.
  intros N. unfold znth. apply nth_In. destruct l; [congruence|]. pose proof (mode_range (Z.of_nat (length (a :: l))) k). cbn [length] in *. lia.
Qed.
Lemma conv_range f w lo hi : unit_sum w -> all_nonneg w -> within lo hi f -> within lo hi (convolve mode f w).
Proof.
  intros U N W. unfold within in *. rewrite Forall_forall in *. intros x Hx. apply tab_in in Hx. destruct Hx as [i [Hi ->]].
  assert (NE : f <> nil) by (intros ->; cbn in Hi; lia).
  unfold unit_sum in U. rewrite Rsum_ext_tab in U.
  assert (Q : forall m, (m < length w)%nat -> 0 <= nth m w 0).
  { intros m Hm. unfold all_nonneg in N. rewrite Forall_forall in N. apply N, nth_In, Hm. }
  split.
  - replace lo with (Rsum (tab (length w) (fun m => nth m w 0 * lo))) by (rewrite Rsum_tab_scal_r, U; ring).
    apply Rsum_tab_le. intros m Hm. apply Rmult_le_compat_l; [auto|]. apply W, znth_in, NE.
  - replace hi with (Rsum (tab (length w) (fun m => nth m w 0 * hi))) by (rewrite Rsum_tab_scal_r, U; ring).
    apply Rsum_tab_le. intros m Hm. apply Rmult_le_compat_l; [auto|]. apply W, znth_in, NE.
Qed.
Lemma conv_const n w c : unit_sum w -> convolve mode (repeat c n) w = repeat c n.
Proof.
  intros U. apply (list_eq_nth 0); [apply conv_length|]. intros i Hi. rewrite conv_length in Hi. rewrite conv_nth by exact Hi.
  rewrite (tab_ext _ _ (fun m => nth m w 0 * c)).
  - rewrite Rsum_tab_scal_r, <- Rsum_ext_tab, U. rewrite repeat_length in Hi.
    symmetry. rewrite Rmult_1_l. apply (repeat_spec n). apply nth_In. now rewrite repeat_length.
  - intros m _. f_equal. apply (repeat_spec n). apply znth_in. destruct n; [cbn in Hi; lia|discriminate].
Qed.
Lemma znth_plus a b f g k : length f = length g ->
  znth 0 (map2 (fun x y => a * x + b * y) f g) (mode (Z.of_nat (length f)) k) = a * znth 0 f (mode (Z.of_nat (length f)) k) + b * znth 0 g (mode (Z.of_nat (length f)) k).
Proof.
  intros L. destruct f as [|x f]; [destruct g; [|discriminate]|].
  - unfold znth. cbn [map2]. destruct (Z.to_nat _); cbn; ring.
  - pose proof (mode_range (Z.of_nat (length (x :: f))) k ltac:(cbn [length]; lia)). unfold znth. rewrite (map2_nth _ _ _ _ 0 0); [reflexivity|lia|lia].
Qed.
Lemma conv_linear a b f g w : length f = length g ->
  convolve mode (map2 (fun x y => a * x + b * y) f g) w = map2 (fun x y => a * x + b * y) (convolve mode f w) (convolve mode g w).
Proof.
  intros L. assert (L2 : length (map2 (fun x y => a * x + b * y) f g) = length f) by (rewrite map2_length; lia).
  apply (list_eq_nth 0); [rewrite conv_length, !map2_length, !conv_length; lia|].
  intros i Hi. rewrite conv_length, L2 in Hi. rewrite conv_nth by lia.
  rewrite (map2_nth _ _ _ _ 0 0) by (rewrite conv_length; lia). rewrite !conv_nth by lia. rewrite L2, <- L.
  rewrite <- !Rsum_tab_scal, <- Rsum_tab_plus. f_equal. apply tab_ext. intros m _. rewrite znth_plus by exact L. ring.
Qed.
End Convolve.
Lemma wrap_range n k : (0 < n)%Z -> (0 <= wrap_index n k < n)%Z.
Proof. intros. now apply Z.mod_pos_bound. Qed.
Lemma reflect_range n k : (0 < n)%Z -> (0 <= reflect_index n k < n)%Z.
Proof.
  intros H. unfold reflect_index. pose proof (Z.mod_pos_bound k (2 * n) ltac:(lia)). cbv zeta.
  destruct (Z.ltb_spec (k mod (2 * n)) n); lia.
Qed.

(** ** Periodic filter *)
Lemma wrap_mean f w : unit_sum w -> Rsum (convolve wrap_index f w) = Rsum f.
Proof.
  intros U. unfold convolve. rewrite Rsum_tab_swap.
  rewrite (tab_ext _ _ (fun m => nth m w 0 * Rsum f)).
  - rewrite Rsum_tab_scal_r, <- Rsum_ext_tab, U. ring.
  - intros m _. rewrite Rsum_tab_scal. f_equal. rewrite (Rsum_ext_tab f). unfold wrap_index, znth.
    pose (F := fun k => nth (Z.to_nat (k mod Z.of_nat (length f))) f 0).
    rewrite (tab_ext _ (fun i => nth i f 0) (fun i => F (Z.of_nat i))).
    2:{ intros i Hi. unfold F. rewrite Z.mod_small, Nat2Z.id by lia. reflexivity. }
    rewrite <- (Rsum_period (length f) F) with (s := (Z.of_nat (length w / 2) - Z.of_nat m)%Z).
    + f_equal. apply tab_ext. intros i _. unfold F. do 3 f_equal. lia.
    + intros k. unfold F. destruct (length f) as [|n]; [cbn; now rewrite Z.add_0_r|]. do 2 f_equal.
      rewrite <- (Z.mul_1_l (Z.of_nat (S n))) at 1. apply Z_mod_plus_full.
Qed.
Lemma rotate_length {A} (d : A) s l : length (rotate d s l) = length l.
Proof. apply tab_length. Qed.
Lemma wrap_rotate s f w : convolve wrap_index (rotate 0 s f) w = rotate 0 s (convolve wrap_index f w).
Proof.
  apply (list_eq_nth 0); [now rewrite conv_length, !rotate_length, conv_length|]. intros i Hi. rewrite conv_length, rotate_length in Hi.
  rewrite conv_nth by now rewrite rotate_length. rewrite rotate_length. unfold rotate at 2. rewrite conv_length, tab_nth by exact Hi.
  assert (N : (0 < Z.of_nat (length f))%Z) by lia.
  pose proof (Z.mod_pos_bound (Z.of_nat i + s) _ N) as B. rewrite conv_nth by lia. rewrite Z2Nat.id by lia.
  f_equal. apply tab_ext. intros m _. f_equal. unfold rotate, znth.
  pose proof (wrap_range (Z.of_nat (length f)) (Z.of_nat i + Z.of_nat (length w / 2) - Z.of_nat m) N) as B2.
  rewrite tab_nth by lia. rewrite Z2Nat.id by lia. unfold wrap_index. do 2 f_equal.
  rewrite Zplus_mod_idemp_l.
  replace ((Z.of_nat i + s) mod Z.of_nat (length f) + Z.of_nat (length w / 2) - Z.of_nat m)%Z
    with ((Z.of_nat i + s) mod Z.of_nat (length f) + (Z.of_nat (length w / 2) - Z.of_nat m))%Z by lia.
  rewrite Zplus_mod_idemp_l. f_equal. lia.
Qed.

(** ** Reflecting filter *)
Lemma reflect_mirror n k : (0 < n)%Z -> reflect_index n (n - 1 - k) = (n - 1 - reflect_index n k)%Z.
Proof.
  intros N. unfold reflect_index. cbv zeta. pose proof (Z.div_mod k (2 * n) ltac:(lia)) as D. pose proof (Z.mod_pos_bound k (2 * n) ltac:(lia)) as B.
  set (m := (k mod (2 * n))%Z) in *. set (q := (k / (2 * n))%Z) in *.
  destruct (Z.ltb_spec m n) as [L|L].
  - replace ((n - 1 - k) mod (2 * n))%Z with (n - 1 - m)%Z.
    + destruct (Z.ltb_spec (n - 1 - m) n); lia.
    + apply (Z.mod_unique_pos _ _ (- q)); [lia|]. lia.
  - replace ((n - 1 - k) mod (2 * n))%Z with (3 * n - 1 - m)%Z.
    + destruct (Z.ltb_spec (3 * n - 1 - m) n); lia.
    + apply (Z.mod_unique_pos _ _ (- q - 1)); [lia|]. lia.
Qed.
Lemma reflect_rev f w h : length w = (2 * h + 1)%nat -> rev w = w -> convolve reflect_index (rev f) w = rev (convolve reflect_index f w).
Proof.
  intros L Sy. apply (list_eq_nth 0); [now rewrite rev_length, !conv_length, rev_length|]. intros i Hi. rewrite conv_length, rev_length in Hi.
  rewrite conv_nth by now rewrite rev_length. rewrite rev_length. rewrite rev_nth by now rewrite conv_length. rewrite conv_length, conv_nth by lia.
  assert (N : (0 < Z.of_nat (length f))%Z) by lia.
  rewrite <- Rsum_tab_rev. f_equal. apply tab_ext. intros m Hm. f_equal.
  - transitivity (nth (length w - 1 - m) (rev w) 0); [now rewrite Sy|]. rewrite rev_nth by lia. f_equal. lia.
  - assert (H2 : (length w / 2 = h)%nat) by (rewrite L; symmetry; apply (Nat.div_unique (2 * h + 1) 2 h 1); lia).
    rewrite H2. unfold znth.
    pose proof (reflect_range (Z.of_nat (length f)) (Z.of_nat i + Z.of_nat h - Z.of_nat (length w - 1 - m)) N) as B.
    rewrite rev_nth by lia. f_equal.
    replace (Z.of_nat (length f - S i) + Z.of_nat h - Z.of_nat m)%Z with (Z.of_nat (length f) - 1 - (Z.of_nat i + Z.of_nat h - Z.of_nat (length w - 1 - m)))%Z by lia.
    rewrite reflect_mirror by exact N. lia.
Qed.
Lemma convolve_columns_shaped mode nc f w : shaped (length f) nc (convolve_columns mode nc f w).
Proof. apply (shaped_mat_of (length f) nc). Qed.
Lemma convolve_columns_col mode nc f w j : (j < nc)%nat -> mcol (convolve_columns mode nc f w) j = convolve mode (mcol f j) w.
Proof.
  intros H. unfold mcol at 1, convolve_columns. rewrite tab_map. unfold convolve. rewrite mcol_length.
  apply tab_ext. intros i _. rewrite tab_nth by exact H. f_equal. apply tab_ext. intros m _. f_equal.
  unfold znth, mcol. rewrite <- (map_nth (fun r : vec => nth j r 0)). f_equal. now destruct j.
Qed.

(** ** Filtering by wavenumber *)
Lemma clip_bounds n k : (0 < n)%nat -> 0 < clip k 1 (INR n / 2) <= INR n / 2.
Proof.
  intros N. assert (0 < INR n) by now apply lt_0_INR. unfold clip. split.
  - apply Rmin_glb_lt; [|lra]. pose proof (Rmax_r k 1). lra.
  - apply Rmin_r.
Qed.
Lemma wave_points_ge n k : (0 < n)%nat -> (2 <= wave_points n k)%nat /\ (Int_part (INR n / clip k 1 (INR n / 2)) = Z.of_nat (wave_points n k))%Z.
Proof.
  intros N. assert (P : 0 < INR n) by now apply lt_0_INR. pose proof (clip_bounds n k N) as [C1 C2]. unfold wave_points. fold (clip k 1 (INR n / 2)).
  set (c := clip k 1 (INR n / 2)) in *.
  assert (Q : 2 <= INR n / c). { apply (Rmult_le_reg_r c); [exact C1|]. unfold Rdiv. rewrite Rmult_assoc, Rinv_l by lra. lra. }
  pose proof (Int_part_spec (INR n / c)) as [_ B].
  assert (1 < Int_part (INR n / c))%Z by (apply lt_IZR; lra). lia.
Qed.
Lemma widths_form n k : (0 < n)%nat -> Z.to_nat (Int_part (INR n / clip k 1 (INR n / 2)) * 2 + 1) = (2 * wave_points n k + 1)%nat.
Proof. intros N. destruct (wave_points_ge n k N) as [_ ->]. lia. Qed.
Lemma list_max0_ge l x : In x l -> (x <= list_max0 l)%nat.
Proof. induction l as [|a l IH]; intros H; [destruct H|]. cbn. destruct H as [->|H]; [lia|]. apply IH in H. unfold list_max0 in H. lia. Qed.
Lemma hann_cos h i : (0 < h)%nat -> hann_weight h i = cos (PI * (INR i - INR h) / INR (2 * h)) ^ 2 / INR h.
Proof.
  intros H. unfold hann_weight. destruct h as [|h]; [lia|]. do 2 f_equal.
  assert (P : 0 < INR (S h)) by (apply lt_0_INR; lia).
  replace (PI * (INR i - INR (S h)) / INR (2 * S h)) with (PI * INR i / INR (2 * S h) - PI / 2).
  - rewrite cos_minus, cos_PI2, sin_PI2. ring.
  - rewrite mult_INR. cbn [INR] in *. field. lra.
Qed.
Lemma half_odd h : ((2 * h + 1 - 1) / 2 = h)%nat.
Proof. replace (2 * h + 1 - 1)%nat with (h * 2)%nat by lia. apply Nat.div_mul. lia. Qed.
Lemma conv_hann h f i j nr nc : shaped nr nc f -> (i < nr)%nat -> (j < nc)%nat -> (0 < h)%nat ->
  mget (convolve2d_same_wrap f (normalize (hann_window (2 * h + 1)))) i j = hann_mean h (nth i f nil) j.
Proof.
  intros S Hi Hj H. rewrite hann_form, normalize_form. unfold mget, convolve2d_same_wrap.
  rewrite (nth_map_lt _ _ _ nil nil) by (rewrite (proj1 S); exact Hi).
  assert (L : length (nth i f nil) = nc) by (apply (shaped_row nr nc); auto).
  rewrite L, tab_nth by exact Hj. rewrite tab_length, half_odd. unfold hann_mean. rewrite <- Rsum_tab_rev. f_equal.
  apply tab_ext. intros m Hm. rewrite tab_nth by lia. rewrite (weight_symmetric Hann) by exact Hm. cbn [weight_of]. rewrite hann_cos by exact H.
  f_equal. unfold znth, wrap_index. rewrite L. do 3 f_equal. lia.
Qed.
Lemma hann_mean_range h row j lo hi : (0 < h)%nat -> row <> nil -> within lo hi row -> lo <= hann_mean h row j <= hi.
Proof.
  intros H NE W. unfold within in W. rewrite Forall_forall in W.
  assert (E : hann_mean h row j = Rsum (tab (2 * h + 1) (fun i => hann_weight h i * znth 0 row (wrap_index (Z.of_nat (length row)) (Z.of_nat j + (Z.of_nat i - Z.of_nat h)))))).
  { unfold hann_mean. f_equal. apply tab_ext. intros i _. rewrite hann_cos by exact H. reflexivity. }
  rewrite E. pose proof (weight_sum Hann h) as U. cbn [weight_of] in U. split.
  - replace lo with (Rsum (tab (2 * h + 1) (fun i => hann_weight h i * lo))) by (rewrite Rsum_tab_scal_r, U; ring).
    apply Rsum_tab_le. intros i _. apply Rmult_le_compat_l; [apply (weight_nonneg Hann)|]. apply W. apply (znth_in wrap_index); [apply wrap_range|exact NE].
  - replace hi with (Rsum (tab (2 * h + 1) (fun i => hann_weight h i * hi))) by (rewrite Rsum_tab_scal_r, U; ring).
    apply Rsum_tab_le. intros i _. apply Rmult_le_compat_l; [apply (weight_nonneg Hann)|]. apply W. apply (znth_in wrap_index); [apply wrap_range|exact NE].
Qed.
Lemma by_wavenumber_value nr nc f k : shaped nr nc f -> shaped nr nc k -> (0 < nr)%nat -> (0 < nc)%nat ->
  filter_by_wavenumber f (A2 k) = Ok (mat_of nr nc (fun i j => hann_mean (wave_points nc (mget k i j)) (nth i f nil) j)).
Proof.
  intros Sf Sk Nr Nc. unfold filter_by_wavenumber. rewrite (shaped_ncols nr nc f Sf Nr), (proj1 Sf).
  rewrite (proj2 (shapedb_spec nr nc k) Sk). cbn [bind].
  assert (W : forall i j, (i < nr)%nat -> (j < nc)%nat -> nth j (nth i (hann_widths nc k) nil) 0%nat = (2 * wave_points nc (mget k i j) + 1)%nat).
  { intros i j Hi Hj. unfold hann_widths. rewrite (nth_map_lt _ _ _ nil nil) by (rewrite (proj1 Sk); exact Hi).
    rewrite (nth_map_lt _ _ _ 0 0%nat) by (rewrite (shaped_row nr nc) by (auto; exact Sk); exact Hj). apply widths_form, Nc. }
  assert (Sw : shaped nr nc (hann_widths nc k)).
  { destruct Sk as [S1 S2]. split; [unfold hann_widths; now rewrite map_length|]. unfold hann_widths. apply Forall_map.
    eapply Forall_impl; [|exact S2]. intros r Hr. cbn. now rewrite map_length. }
  assert (I : forall i j, (i < nr)%nat -> (j < nc)%nat -> In (2 * wave_points nc (mget k i j) + 1)%nat (concat (hann_widths nc k))).
  { intros i j Hi Hj. rewrite <- W by assumption. apply in_concat. exists (nth i (hann_widths nc k) nil). split.
    - apply nth_In. rewrite (proj1 Sw). exact Hi.
    - apply nth_In. rewrite (shaped_row nr nc) by (auto; exact Sw). exact Hj. }
  set (used := concat (hann_widths nc k)) in *. destruct used as [|u0 ur] eqn:U; [destruct (I 0%nat 0%nat Nr Nc)|]. rewrite <- U in *. clear U u0 ur.
  f_equal. unfold mat_of. apply tab_ext. intros i Hi. apply tab_ext. intros j Hj. rewrite W by assumption.
  pose proof (I i j Hi Hj) as Iij. pose proof (list_max0_ge _ _ Iij) as M. set (h := wave_points nc (mget k i j)) in *.
  rewrite half_odd.
  assert (B : (h < (list_max0 used + 1) / 2)%nat).
  { apply Nat.lt_le_trans with ((2 * h + 1 + 1) / 2)%nat; [|apply Nat.div_le_mono; lia].
    replace (2 * h + 1 + 1)%nat with ((h + 1) * 2)%nat by lia. rewrite Nat.div_mul by lia. lia. }
  rewrite (nth_map_lt _ _ _ 0%nat nil) by (rewrite seq_length; exact B). rewrite seq_nth by exact B. rewrite Nat.add_0_l.
  assert (X : existsb (Nat.eqb (2 * h + 1)) used = true).
  { apply existsb_exists. exists (2 * h + 1)%nat. split; [exact Iij|apply Nat.eqb_refl]. }
  cbv zeta. rewrite X. apply (conv_hann h f i j nr nc); auto. destruct (wave_points_ge nc (mget k i j) Nc). fold h in H. lia.
Qed.
