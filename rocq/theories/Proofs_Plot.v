(** Data processing for plots: proofs. *)
From Coq Require Export String.
From Verif Require Import Base Model_Grid Model_Time Model_State Model_Plot Proofs_Base Proofs_Grid.
From Coq Require Import List Lia Lra.
Open Scope R_scope.

(** ** Subsampling *)
Lemma slice_from_nth {A} (l : list A) step : (1 <= step)%nat -> forall fuel start k, (length l <= fuel + start)%nat ->
  nth_error (slice_from fuel start step l) k = nth_error l (start + k * step).
Proof.
  intros S. induction fuel as [|fuel IH]; intros start k L; cbn [slice_from].
  - symmetry. destruct k; cbn [nth_error]; apply nth_error_None; lia.
  - destruct (nth_error l start) as [x|] eqn:E.
    + destruct k as [|k]; cbn [nth_error]; [now rewrite Nat.mul_0_l, Nat.add_0_r|]. rewrite IH by lia. f_equal. lia.
    + apply nth_error_None in E. symmetry. destruct k; cbn [nth_error]; apply nth_error_None; lia.
Qed.
Lemma np_slice_nth {A} (l : list A) start step k : (1 <= step)%nat ->
  nth_error (np_slice start step l) k = nth_error l (start + k * step).
Proof. intros S. apply slice_from_nth; [exact S|lia]. Qed.
Definition entry {A} (m : list (list A)) (i j : nat) : option A :=
  match nth_error m i with Some r => nth_error r j | None => None end.
Lemma slice2_entry {A} (m : list (list A)) start step i j : (1 <= step)%nat ->
  entry (slice2 start step m) i j = entry m (start + i * step) (start + j * step).
Proof.
  intros S. unfold entry, slice2. rewrite nth_error_map, np_slice_nth by exact S.
  destruct (nth_error m _); cbn [option_map]; [now apply np_slice_nth|reflexivity].
Qed.
Lemma slice_length {A} (l : list A) start step k : (1 <= step)%nat ->
  (k < length (np_slice start step l) <-> start + k * step < length l)%nat.
Proof. intros S. rewrite <- nth_error_Some, np_slice_nth by exact S. apply nth_error_Some. Qed.
Lemma spacing_pos rows ny : (1 <= spacing_of rows ny)%nat.
Proof. unfold spacing_of. lia. Qed.
Lemma spacing_bounds rows ny : (1 <= ny <= rows)%nat ->
  (spacing_of rows (Z.of_nat ny) * ny <= rows < spacing_of rows (Z.of_nat ny) * ny + ny)%nat.
Proof.
  intros H. unfold spacing_of. rewrite <- Nat2Z.inj_div. pose proof (Nat.div_str_pos rows ny ltac:(lia)). rewrite Z.max_l by lia.
  rewrite Nat2Z.id. pose proof (Nat.div_mod rows ny ltac:(lia)). pose proof (Nat.mod_upper_bound rows ny ltac:(lia)). nia.
Qed.
Lemma kept_rows (l : mat) ny : (1 <= ny <= length l)%nat ->
  let s := spacing_of (length l) (Z.of_nat ny) in (ny <= length (np_slice (s / 2) s l) < 2 * ny)%nat.
Proof.
  intros H s. pose proof (spacing_bounds _ _ H) as [B1 B2]. pose proof (spacing_pos (length l) (Z.of_nat ny)) as P.
  fold s in B1, B2, P. pose proof (Nat.div_mod s 2 ltac:(lia)) as D. pose proof (Nat.mod_upper_bound s 2 ltac:(lia)).
  split.
  - assert (ny - 1 < length (np_slice (s / 2) s l))%nat; [|lia]. apply slice_length; [exact P|]. nia.
  - assert (~ (2 * ny - 1 < length (np_slice (s / 2) s l))%nat); [|lia]. rewrite slice_length by exact P. nia.
Qed.
Lemma all_rows_kept (l : mat) ny : (Z.of_nat (length l) < ny \/ ny < 0)%Z ->
  let s := spacing_of (length l) ny in np_slice (s / 2) s l = l.
Proof.
  intros H s. assert (s = 1%nat) as ->.
  { unfold s, spacing_of. destruct H as [H|H].
    - rewrite Z.div_small by lia. reflexivity.
    - pose proof (Z.div_mod (Z.of_nat (length l)) ny ltac:(lia)). pose proof (Z.mod_neg_bound (Z.of_nat (length l)) ny H).
      assert (Z.of_nat (length l) / ny <= 0)%Z by nia. lia. }
  assert (E : forall i, nth_error (np_slice (1 / 2) 1 l) i = nth_error l i).
  { intros i. rewrite np_slice_nth by lia. cbn [Nat.div Nat.divmod fst]. f_equal. cbn. lia. }
  clear -E. generalize dependent (np_slice (1 / 2) 1 l). intros m E. revert m E.
  induction l as [|a l IH]; intros [|b m] E; try (specialize (E 0%nat); discriminate); [reflexivity|].
  pose proof (E 0%nat) as E0. injection E0 as ->. f_equal. apply IH. intros i. apply (E (S i)).
Qed.

(** ** Hovmoeller diagrams *)
Lemma nlon_ne_nlat res rs om nt g : mk_grid res rs om nt = Ok g -> (g_nlat g < g_nlon g)%nat.
Proof.
  intros H. pose proof (mk_grid_facts _ _ _ _ _ H) as F.
  pose proof (gf_nlon4 _ _ _ _ F). pose proof (gf_nlat3 _ _ _ _ F). pose proof (gf_nlat_lo _ _ _ _ F) as A. pose proof (gf_nlon_hi _ _ _ _ F) as B.
  assert (Q : 2 * INR (g_nlat g - 1) < INR (g_nlon g) + 1) by lra.
  replace 2 with (INR 2) in Q by reflexivity. rewrite <- mult_INR in Q. rewrite <- S_INR in Q. apply INR_lt in Q. lia.
Qed.
Lemma stack1_ok l n : l <> nil -> Forall (fun v => length v = n) l -> np_stack1 l = Ok l.
Proof.
  intros N F. destruct l as [|a l]; [congruence|]. unfold np_stack1. replace (forallb _ _) with true; [reflexivity|].
  symmetry. apply forallb_forall. intros b Hb. rewrite Forall_forall in F. apply Nat.eqb_eq.
  rewrite (F b Hb). symmetry. apply F. now left.
Qed.
Lemma transpose_get nr nc m i t : shaped nr nc m -> (i < nc)%nat -> (t < nr)%nat -> mget (transpose nc m) i t = mget m t i.
Proof.
  intros [S _] Hi Ht. unfold mget at 1, transpose. rewrite tab_nth by exact Hi. now rewrite mcol_nth by lia.
Qed.
Lemma transpose_shaped nr nc m : shaped nr nc m -> shaped nc nr (transpose nc m).
Proof.
  intros [S _]. split; [apply tab_length|]. apply Forall_forall. intros r Hr. apply tab_in in Hr. destruct Hr as [i [_ ->]].
  now rewrite mcol_length.
Qed.

(** ** Rolling longitudes *)
Lemma rmod_bounds x m : 0 < m -> 0 <= rmod x m < m.
Proof.
  intros H. unfold rmod. pose proof (Int_part_spec (x / m)) as [A B].
  assert (x = m * (x / m)) by (field; lra). split; nra.
Qed.
Lemma rmod_unique x m y (k : Z) : 0 < m -> 0 <= y < m -> x = y + m * IZR k -> rmod x m = y.
Proof.
  intros H B E. unfold rmod. rewrite (Int_part_unique (x / m) k); [lra|].
  assert (0 <= y / m < 1).
  { split; [apply Rmult_le_pos; [lra|left; now apply Rinv_0_lt_compat]|]. apply Rmult_lt_reg_r with m; [exact H|].
    unfold Rdiv. rewrite Rmult_assoc, Rinv_l by lra. lra. }
  replace (x / m) with (y / m + IZR k); [lra|]. rewrite E. field. lra.
Qed.
Lemma rmod_split x m : exists k : Z, x = rmod x m + m * IZR k.
Proof. exists (Int_part (x / m)). unfold rmod. ring. Qed.
Lemma argmin_from_spec l : forall best besti i full, nth_error full besti = Some best -> (besti < i)%nat ->
  (forall k x, nth_error l k = Some x -> nth_error full (i + k) = Some x) -> length full = (i + length l)%nat ->
  (forall k x, (k < i)%nat -> nth_error full k = Some x -> best <= x) ->
  exists x, nth_error full (argmin_from best besti i l) = Some x /\ forall k y, nth_error full k = Some y -> x <= y.
Proof.
  induction l as [|x l IH]; intros best besti i full Hb Lb Hl Len Hm; cbn [argmin_from].
  - exists best. split; [exact Hb|]. intros k y Hk. apply (Hm k); [|exact Hk].
    assert (k < length full)%nat by (apply nth_error_Some; congruence). cbn in Len. lia.
  - pose proof (Hl 0%nat x eq_refl) as Hx. rewrite Nat.add_0_r in Hx.
    assert (Hl' : forall k x0, nth_error l k = Some x0 -> nth_error full (S i + k) = Some x0).
    { intros k x0 Hk. replace (S i + k)%nat with (i + S k)%nat by lia. now apply Hl. }
    cbn [length] in Len. destruct (Rltb x best) eqn:C; [apply Rltb_true in C|apply Rltb_false in C].
    + apply IH; auto; [lia|]. intros k y Hk Hy. destruct (Nat.eq_dec k i) as [->|]; [assert (y = x) by congruence; lra|].
      pose proof (Hm k y ltac:(lia) Hy). lra.
    + apply IH; auto; [lia|]. intros k y Hk Hy. destruct (Nat.eq_dec k i) as [->|]; [assert (y = x) by congruence; lra|].
      apply (Hm k y ltac:(lia) Hy).
Qed.
Lemma argmin_spec l : l <> nil -> (argmin l < length l)%nat /\ forall k, (k < length l)%nat -> nth (argmin l) l 0 <= nth k l 0.
Proof.
  intros N. destruct l as [|x l]; [congruence|].
  destruct (argmin_from_spec l x 0 1 (x :: l)) as [y [Hy Hm]]; auto.
  - intros [|k] z Hk Hz; [|lia]. injection Hz as <-. lra.
  - unfold argmin. split; [apply nth_error_Some; congruence|]. intros k Hk. rewrite (nth_error_nth _ _ 0 Hy).
    destruct (nth_error (x :: l) k) as [z|] eqn:Z; [|apply nth_error_None in Z; lia]. rewrite (nth_error_nth _ _ 0 Z). eapply Hm, Z.
Qed.
Lemma zroll_nth {A} (d : A) s l i : (i < length l)%nat ->
  nth i (zroll d s l) d = nth (Z.to_nat ((Z.of_nat i - s) mod Z.of_nat (length l))) l d.
Proof. intros H. unfold zroll. now rewrite tab_nth. Qed.
Lemma zroll_length {A} (d : A) s l : length (zroll d s l) = length l.
Proof. apply tab_length. Qed.
Lemma zroll_inverse {A} (d : A) s l : zroll d (- s) (zroll d s l) = l.
Proof.
  apply (list_eq_nth d); [now rewrite !zroll_length|]. intros i Hi. rewrite zroll_length in Hi.
  rewrite zroll_length in Hi. rewrite zroll_nth by now rewrite zroll_length. rewrite zroll_length.
  assert (N : (0 < Z.of_nat (length l))%Z) by lia.
  pose proof (Z.mod_pos_bound (Z.of_nat i - - s) (Z.of_nat (length l)) N) as B.
  rewrite zroll_nth by lia. f_equal. rewrite Z2Nat.id by lia. rewrite Zminus_mod_idemp_l.
  replace (Z.of_nat i - - s - s)%Z with (Z.of_nat i) by lia. rewrite Z.mod_small by lia. apply Nat2Z.id.
Qed.
Section Grid.
Variables (g : grid) (center : R).
Hypothesis N0 : (0 < g_nlon g)%nat.
Let n := g_nlon g.
Let c := rmod center 360.
Let dist := map (fun x => Rabs (x - c)) (g_lon g).
Lemma dist_length : length dist = n.
Proof. unfold dist. rewrite map_length. apply lon_length. Qed.
Lemma dist_nth k : (k < n)%nat -> nth k dist 0 = Rabs (nth k (g_lon g) 0 - c).
Proof. intros H. unfold dist. apply (nth_map_lt (fun x => Rabs (x - c))). now rewrite lon_length. Qed.
Lemma mid_lt : (argmin dist < n)%nat.
Proof. rewrite <- dist_length. apply argmin_spec. intros E. pose proof dist_length as L. rewrite E in L. cbn in L. unfold n in L. lia. Qed.
Lemma mid_min k : (k < n)%nat -> Rabs (nth (argmin dist) (g_lon g) 0 - c) <= Rabs (nth k (g_lon g) 0 - c).
Proof.
  intros H. rewrite <- !dist_nth by (auto; apply mid_lt). apply argmin_spec; [|now rewrite dist_length].
  intros E. pose proof dist_length as L. rewrite E in L. cbn in L. unfold n in L. lia.
Qed.
Lemma shift_eq : roll_shift (g_lon g) center = (Z.of_nat (n / 2) - Z.of_nat (argmin dist))%Z.
Proof. unfold roll_shift. now rewrite lon_length. Qed.
Lemma lon_at k : (k < n)%nat -> nth k (g_lon g) 0 = INR k * (360 / INR n).
Proof. intros H. rewrite lon_nth by exact H. unfold n. lra. Qed.
Lemma n_pos : 0 < INR n.
Proof. apply lt_0_INR. exact N0. Qed.
Lemma offset_eq : exists m : Z, py_nth (g_lon g) (roll_shift (g_lon g) center) = IZR (roll_shift (g_lon g) center) * (360 / INR n) + 360 * IZR m.
Proof.
  pose proof mid_lt as M. pose proof n_pos as P. rewrite shift_eq. set (a := argmin dist) in *. unfold py_nth. rewrite lon_length. fold n.
  pose proof (Nat.div_lt n 2 ltac:(unfold n; lia) ltac:(lia)).
  destruct (Z.ltb_spec (Z.of_nat (n / 2) - Z.of_nat a) 0).
  - exists 1%Z. rewrite lon_at by lia. rewrite INR_IZR_INZ, Z2Nat.id by lia. rewrite !plus_IZR, <- !INR_IZR_INZ. field. lra.
  - exists 0%Z. rewrite lon_at by lia. rewrite INR_IZR_INZ, Z2Nat.id by lia. lra.
Qed.
Lemma label_true k : (k < n)%nat ->
  lon_label (py_nth (g_lon g) (roll_shift (g_lon g) center)) (nth k (g_lon g) 0)
  = nth (Z.to_nat ((Z.of_nat k - roll_shift (g_lon g) center) mod Z.of_nat n)) (g_lon g) 0.
Proof.
  intros H. destruct offset_eq as [m ->]. set (s := roll_shift (g_lon g) center). pose proof n_pos as P.
  assert (N : (0 < Z.of_nat n)%Z) by (unfold n; lia).
  pose proof (Z.mod_pos_bound (Z.of_nat k - s) (Z.of_nat n) N) as B. pose proof (Z.div_mod (Z.of_nat k - s) (Z.of_nat n) ltac:(lia)) as D.
  set (q := ((Z.of_nat k - s) / Z.of_nat n)%Z) in *. set (r := ((Z.of_nat k - s) mod Z.of_nat n)%Z) in *.
  rewrite !lon_at by lia. unfold lon_label. apply (rmod_unique _ _ _ (q - m)); [lra| |].
  - assert (0 <= INR (Z.to_nat r) < INR n) by (split; [apply pos_INR|apply lt_INR; lia]).
    assert (0 < 360 / INR n) by (apply Rdiv_lt_0_compat; lra). split; [nra|].
    replace 360 with (INR n * (360 / INR n)) at 2 by (field; lra). nra.
  - rewrite (INR_IZR_INZ (Z.to_nat r)), Z2Nat.id by lia. rewrite minus_IZR.
    apply (f_equal IZR) in D. rewrite minus_IZR, plus_IZR, mult_IZR, <- !INR_IZR_INZ in D.
    replace (INR k) with (IZR s + (INR n * IZR q + IZR r)) by lra. field. lra.
Qed.
Lemma nearest_exists : c <= 360 - 180 / INR n -> exists k, (k < n)%nat /\ Rabs (nth k (g_lon g) 0 - c) <= 180 / INR n.
Proof.
  intros H. pose proof n_pos as P. pose proof (rmod_bounds center 360 ltac:(lra)) as [C0 C1]. fold c in C0, C1.
  set (d := 360 / INR n). assert (D : 0 < d) by (apply Rdiv_lt_0_compat; lra). replace (180 / INR n) with (d / 2) in * by (unfold d; field; lra).
  pose proof (Int_part_spec (c / d + 1 / 2)) as [A B]. set (z := Int_part (c / d + 1 / 2)) in *.
  assert (E : c = d * (c / d)) by (field; lra).
  assert (Q : 0 <= c / d) by (apply Rmult_le_pos; [lra|left; now apply Rinv_0_lt_compat]).
  assert (Nn : INR n * d = 360) by (unfold d; field; lra).
  assert (Z0 : (0 <= z)%Z). { assert (-1 < z)%Z by (apply lt_IZR; lra). lia. }
  destruct (Z_lt_le_dec z (Z.of_nat n)) as [L|L].
  - exists (Z.to_nat z). split; [lia|]. rewrite lon_at by lia. fold d. rewrite INR_IZR_INZ, Z2Nat.id by lia. apply Rabs_le. nra.
  - exists (n - 1)%nat. split; [unfold n; lia|]. rewrite lon_at by (unfold n; lia). fold d.
    rewrite minus_INR by (unfold n; lia). apply IZR_le in L. rewrite <- INR_IZR_INZ in L. cbn [INR]. apply Rabs_le. nra.
Qed.
Lemma closest_on_circle : c <= 360 - 180 / INR n -> forall k (m : Z), (k < n)%nat ->
  Rabs (nth (argmin dist) (g_lon g) 0 - c) <= Rabs (nth k (g_lon g) 0 - c + 360 * IZR m).
Proof.
  intros H k m Hk. destruct (Z.eq_dec m 0) as [->|M]; [rewrite Rmult_0_r, Rplus_0_r; now apply mid_min|].
  destruct (nearest_exists H) as [j [Hj B]]. pose proof (mid_min j Hj) as B'. pose proof n_pos as P.
  pose proof (rmod_bounds center 360 ltac:(lra)) as [C0 C1]. fold c in C0, C1.
  apply Rle_trans with (180 / INR n); [lra|].
  assert (L : 0 <= nth k (g_lon g) 0 <= 360 - 360 / INR n).
  { rewrite lon_at by exact Hk. assert (0 <= INR k <= INR n - 1).
    { split; [apply pos_INR|]. replace (INR n - 1) with (INR (n - 1)) by (rewrite minus_INR by (unfold n; lia); reflexivity). apply le_INR. lia. }
    assert (0 < 360 / INR n) by (apply Rdiv_lt_0_compat; lra). split; [nra|].
    replace (360 - 360 / INR n) with ((INR n - 1) * (360 / INR n)) by (field; lra). apply Rmult_le_compat_r; lra. }
  assert (D : 360 / INR n = 2 * (180 / INR n)) by (field; lra). assert (0 < 180 / INR n) by (apply Rdiv_lt_0_compat; lra).
  destruct (Z_lt_le_dec m 0) as [Lm|Lm].
  - assert (IZR m <= -1) by (apply (IZR_le m (-1)); lia). rewrite <- Rabs_Ropp. eapply Rle_trans; [|apply RRle_abs]. lra.
  - assert (1 <= IZR m) by (apply (IZR_le 1 m); lia). eapply Rle_trans; [|apply RRle_abs]. lra.
Qed.
End Grid.

(** ** Levels *)
Lemma levels_get e n i : (i < n)%nat -> nth i (linspace_end (- e) e n) 0 = - e + INR i * ((e - - e) / INR (n - 1)).
Proof. intros H. unfold linspace_end. now rewrite tab_nth. Qed.

(** ** Ticks *)
Lemma ceil_spec x : x <= IZR (ceil x) < x + 1.
Proof. unfold ceil. pose proof (Int_part_spec (- x)). rewrite opp_IZR. lra. Qed.
Lemma ceil_unique x z : IZR z - 1 < x <= IZR z -> ceil x = z.
Proof.
  intros H. pose proof (ceil_spec x) as [A B].
  assert (IZR (ceil x) < IZR (z + 1)) by (rewrite plus_IZR; lra). assert (IZR z < IZR (ceil x + 1)) by (rewrite plus_IZR; lra).
  apply lt_IZR in H0, H1. lia.
Qed.
Lemma arange_in a b s x : (0 < s)%Z -> In x (arange a b s) <-> (exists k, 0 <= k /\ x = a + k * s)%Z /\ (x < b)%Z.
Proof.
  intros S. unfold arange. rewrite in_map_iff. split.
  - intros [k [<- Hk]]. apply in_seq in Hk. split; [exists (Z.of_nat k); lia|].
    pose proof (Z.div_mod (- (b - a)) s ltac:(lia)). pose proof (Z.mod_pos_bound (- (b - a)) s S). nia.
  - intros [[k [K ->]] L]. exists (Z.to_nat k). split; [rewrite Z2Nat.id by lia; reflexivity|]. apply in_seq. split; [lia|].
    pose proof (Z.div_mod (- (b - a)) s ltac:(lia)). pose proof (Z.mod_pos_bound (- (b - a)) s S). nia.
Qed.
