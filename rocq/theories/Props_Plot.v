(** Data processing for plots (C80-C84). *)
From Coq Require Export String.
From Verif Require Import Base Model_Grid Model_Time Model_Spectral Model_State Model_StateList Model_Plot.
From Verif Require Import Proofs_Base Proofs_Grid Proofs_StateList Spec_Instance Proofs_Instance Proofs_Plot.
From Coq Require Import List Lia Lra.
Open Scope R_scope.

(** ** C80 *)
(** Distance of a longitude to a meridian on the circle *)
Definition closer_or_equal (center a b : R) : Prop :=
  exists m : Z, forall m' : Z, Rabs (a - center + 360 * IZR m) <= Rabs (b - center + 360 * IZR m').
(** the column of the field that is shown in column k *)
Definition shows (roll : mat -> mat) (nlat nlon k j : nat) : Prop :=
  forall f i, shaped nlat nlon f -> (i < nlat)%nat -> mget (roll f) i k = mget f i j.

Lemma roll_get g center k : (0 < g_nlon g)%nat -> (k < g_nlon g)%nat ->
  let j := Z.to_nat ((Z.of_nat k - roll_shift (g_lon g) center) mod Z.of_nat (g_nlon g)) in
  (j < g_nlon g)%nat /\ shows (fst (roll_lon (g_lon g) center)) (g_nlat g) (g_nlon g) k j.
Proof.
  intros N K j. split.
  - pose proof (Z.mod_pos_bound (Z.of_nat k - roll_shift (g_lon g) center) (Z.of_nat (g_nlon g)) ltac:(lia)). unfold j. lia.
  - intros f i S I. unfold roll_lon. cbn [fst]. unfold mget. rewrite (nth_map_lt _ _ _ nil nil) by (rewrite (proj1 S); exact I).
    assert (L : length (nth i f nil) = g_nlon g).
    { destruct S as [S1 S2]. rewrite Forall_forall in S2. apply S2. apply nth_In. lia. }
    rewrite zroll_nth by lia. now rewrite L.
Qed.

Theorem C80_rotation : forall g center f, shaped (g_nlat g) (g_nlon g) f ->
  let roll := fst (roll_lon (g_lon g) center) in
  shaped (g_nlat g) (g_nlon g) (roll f)
  /\ exists s : Z, roll f = map (zroll 0 s) f /\ map (zroll 0 (- s)) (roll f) = f.
Proof.
  intros g center f S roll. split.
  - destruct S as [S1 S2]. split; [unfold roll, roll_lon; cbn [fst]; now rewrite map_length|].
    unfold roll, roll_lon. cbn [fst]. apply Forall_map. eapply Forall_impl; [|exact S2]. intros r Hr. cbn. now rewrite zroll_length.
  - exists (roll_shift (g_lon g) center). split; [reflexivity|]. unfold roll, roll_lon. cbn [fst]. rewrite map_map.
    rewrite <- (map_id f) at 2. apply map_ext. intros r. apply zroll_inverse.
Qed.
Print Assumptions C80_rotation.

Theorem C80_labels : forall g center k, (0 < g_nlon g)%nat -> (k < g_nlon g)%nat ->
  let (roll, offset) := roll_lon (g_lon g) center in
  exists j, (j < g_nlon g)%nat /\ shows roll (g_nlat g) (g_nlon g) k j
    /\ lon_label offset (nth k (g_lon g) 0) = nth j (g_lon g) 0.
Proof.
  intros g center k N K. destruct (roll_get g center k N K) as [B S].
  destruct (roll_lon (g_lon g) center) as [roll offset] eqn:E. cbn [fst] in S.
  eexists. split; [exact B|]. split; [exact S|].
  replace offset with (py_nth (g_lon g) (roll_shift (g_lon g) center)) by (unfold roll_lon in E; now injection E).
  now apply label_true.
Qed.
Print Assumptions C80_labels.

Lemma middle g center : (0 < g_nlon g)%nat ->
  let a := argmin (map (fun x => Rabs (x - rmod center 360)) (g_lon g)) in
  (a < g_nlon g)%nat /\ shows (fst (roll_lon (g_lon g) center)) (g_nlat g) (g_nlon g) (g_nlon g / 2) a.
Proof.
  intros N a. split; [apply (mid_lt g center N)|]. pose proof (mid_lt g center N) as M. fold a in M.
  destruct (roll_get g center (g_nlon g / 2) N) as [B S]; [apply Nat.div_lt; lia|].
  rewrite shift_eq in S. fold a in S.
  replace (Z.of_nat (g_nlon g / 2) - (Z.of_nat (g_nlon g / 2) - Z.of_nat a))%Z with (Z.of_nat a) in S by lia.
  rewrite Z.mod_small, Nat2Z.id in S by lia. exact S.
Qed.
(** Away from the last half gridbox before the zero meridian the middle column
    is the closest one.  Full claim: for all center. *)
Theorem C80_centered_partial : forall g center, (0 < g_nlon g)%nat ->
  rmod center 360 <= 360 - 180 / INR (g_nlon g) ->
  exists j, (j < g_nlon g)%nat /\ shows (fst (roll_lon (g_lon g) center)) (g_nlat g) (g_nlon g) (g_nlon g / 2) j
    /\ forall k, (k < g_nlon g)%nat -> closer_or_equal center (nth j (g_lon g) 0) (nth k (g_lon g) 0).
Proof.
  intros g center N C. destruct (middle g center N) as [B S]. eexists. split; [exact B|]. split; [exact S|].
  intros k K. destruct (rmod_split center 360) as [q Q]. exists q. intros m'.
  pose proof (closest_on_circle g center N C k (m' - q) K) as H. rewrite minus_IZR in H.
  match goal with |- Rabs ?x <= Rabs ?y => match type of H with Rabs ?x' <= Rabs ?y' =>
    replace x with x' by lra; replace y with y' by lra end end. exact H.
Qed.
Print Assumptions C80_centered_partial.

(** Before the zero meridian np.argmin compares distances on the line instead
    of the circle: 350 degrees on a 90 degree grid. *)
Theorem C80_centered_refuted : exists g center, mk_grid 90 1 0 None = Ok g /\
  shows (fst (roll_lon (g_lon g) center)) (g_nlat g) (g_nlon g) (g_nlon g / 2) 3
  /\ ~ closer_or_equal center (nth 3 (g_lon g) 0) (nth 0 (g_lon g) 0).
Proof.
  exists (gridA 1), 350. split; [apply gridA_ok; lra|].
  assert (L : forall k, (k < 4)%nat -> nth k (g_lon (gridA 1)) 0 = 90 * INR k).
  { intros k K. rewrite (lon_at (gridA 1) k) by exact K. cbn [gridA g_nlon INR]. lra. }
  assert (C : rmod 350 360 = 350) by (apply (rmod_unique _ _ _ 0); lra).
  split.
  - destruct (middle (gridA 1) 350 ltac:(cbn; lia)) as [B S]. cbn [g_nlon gridA] in B.
    pose proof (mid_min (gridA 1) 350 ltac:(cbn; lia) 3 ltac:(cbn; lia)) as M. rewrite C in B, S, M.
    set (a := argmin _) in *.
    assert (a = 3)%nat as <-; [|exact S]. rewrite !L in M by lia. cbn [INR] in M.
    rewrite (Rabs_left (90 * (1 + 1 + 1) - 350)) in M by lra.
    destruct a as [|[|[|[|a]]]]; try lia; exfalso; cbn [INR] in M; rewrite Rabs_left in M by lra; lra.
  - intros [m H]. specialize (H 1%Z). rewrite !L in H by lia. cbn [INR] in H.
    rewrite (Rabs_pos_eq (90 * 0 - _ + _)) in H by lra. assert (B : Rabs (90 * (1 + 1 + 1) - 350 + 360 * IZR m) <= 10) by lra.
    apply Rabs_le_between in B || idtac. unfold Rabs in B. destruct (Rcase_abs _).
    + assert (0 < m)%Z by (apply lt_IZR; lra). assert (m < 1)%Z by (apply lt_IZR; lra). lia.
    + assert (0 < m)%Z by (apply lt_IZR; lra). assert (m < 1)%Z by (apply lt_IZR; lra). lia.
Qed.
Print Assumptions C80_centered_refuted.
Example C80_nonvacuous : (0 < g_nlon (gridA 1))%nat /\ rmod (-90) 360 <= 360 - 180 / INR (g_nlon (gridA 1))
  /\ exists f : mat, shaped (g_nlat (gridA 1)) (g_nlon (gridA 1)) f.
Proof.
  split; [cbn; lia|]. split.
  - rewrite (rmod_unique (-90) 360 270 (-1)) by lra. cbn [g_nlon gridA INR]. lra.
  - exists [[1; 2; 3; 4]; [5; 6; 7; 8]; [9; 10; 11; 12]]. split; [reflexivity|]. repeat constructor.
Qed.

(** ** C81 *)
Definition antisymmetric (l : vec) : Prop := forall i, (i < length l)%nat -> nth i l 0 = - nth (length l - 1 - i) l 0.
Definition strictly_increasing (l : vec) : Prop := forall i j, (i < j < length l)%nat -> nth i l 0 < nth j l 0.

Lemma levels_facts e n : (2 <= n)%nat -> 0 < e ->
  length (linspace_end (- e) e n) = n /\ antisymmetric (linspace_end (- e) e n) /\ strictly_increasing (linspace_end (- e) e n)
  /\ nth 0 (linspace_end (- e) e n) 0 = - e /\ nth (n - 1) (linspace_end (- e) e n) 0 = e.
Proof.
  intros N E. assert (L : length (linspace_end (- e) e n) = n) by apply tab_length.
  assert (P : 0 < INR (n - 1)) by (apply lt_0_INR; lia).
  assert (D : 0 < (e - - e) / INR (n - 1)) by (apply Rdiv_lt_0_compat; lra).
  split; [exact L|]. split; [|split; [|split]].
  - intros i Hi. rewrite L in *. rewrite !levels_get by lia. rewrite (minus_INR (n - 1) i) by lia. field. lra.
  - intros i j Hij. rewrite L in *. rewrite !levels_get by lia. assert (INR i < INR j) by (apply lt_INR; lia). nra.
  - rewrite levels_get by lia. cbn. lra.
  - rewrite levels_get by lia. field. lra.
Qed.
Lemma pair_facts e : 0 < e -> antisymmetric [- e; e] /\ strictly_increasing [- e; e].
Proof.
  intros E. split.
  - intros [|[|i]] H; cbn in H |- *; try lia; lra.
  - intros [|[|i]] [|[|j]] H; cbn in H |- *; try lia; lra.
Qed.

(** Without override: every data value lies between the outermost levels, and
    these are not further out than needed. *)
Theorem C81_levels : forall x n, (2 <= n)%nat -> x <> [] ->
  exists l, symmetric_levels x n None = Ok l
  /\ antisymmetric l /\ strictly_increasing l
  /\ (forall y, In y x -> nth 0 l 0 <= y <= nth (length l - 1) l 0)
  /\ ((exists y, In y x /\ y <> 0) -> length l = n /\ exists y, In y x /\ Rabs y = nth (length l - 1) l 0).
Proof.
  intros x n N X. unfold symmetric_levels. destruct x as [|x0 x']; [congruence|]. set (x := x0 :: x') in *. cbn [bind].
  set (e := Rmax (Rabs (vmin x)) (Rabs (vmax x))).
  assert (C : forall y, In y x -> Rabs y <= e).
  { intros y Hy. pose proof (vmin_le x y Hy). pose proof (vmax_ge x y Hy). pose proof (Rmax_l (Rabs (vmin x)) (Rabs (vmax x))).
    pose proof (Rmax_r (Rabs (vmin x)) (Rabs (vmax x))). fold e in H1, H2.
    pose proof (RRle_abs (vmax x)). pose proof (RRle_abs (- vmin x)). rewrite Rabs_Ropp in H4. apply Rabs_le. lra. }
  assert (A : exists y, In y x /\ Rabs y = e).
  { unfold e. destruct (Rmax_case (Rabs (vmin x)) (Rabs (vmax x)) (fun r => True)); [exact I|exact I|].
    unfold Rmax. destruct (Rle_dec _ _); [exists (vmax x)|exists (vmin x)]; split; try reflexivity; [apply vmax_in|apply vmin_in]; exact X. }
  destruct (Req_EM_T e 0) as [Z|Z].
  - exists [-1; 1]. split; [reflexivity|]. destruct (pair_facts 1 ltac:(lra)) as [P1 P2].
    split; [exact P1|]. split; [exact P2|]. split.
    + intros y Hy. apply C in Hy. rewrite Z in Hy. pose proof (Rabs_pos y). pose proof (RRle_abs y). pose proof (RRle_abs (- y)).
      rewrite Rabs_Ropp in H1. cbn. lra.
    + intros [y [Hy Ny]]. exfalso. apply C in Hy. rewrite Z in Hy. pose proof (Rabs_pos_lt y Ny). lra.
  - assert (E : 0 < e). { destruct A as [y [_ Hy]]. pose proof (Rabs_pos y). lra. }
    destruct (levels_facts e n N E) as [L [P1 [P2 [P3 P4]]]].
    eexists. split; [reflexivity|]. split; [exact P1|]. split; [exact P2|]. rewrite L, P3, P4. split.
    + intros y Hy. apply C in Hy. pose proof (RRle_abs y). pose proof (RRle_abs (- y)). rewrite Rabs_Ropp in H0. lra.
    + intros _. split; [reflexivity|exact A].
Qed.
Print Assumptions C81_levels.
Theorem C81_override : forall x n e, (2 <= n)%nat -> 0 <= e ->
  exists l, symmetric_levels x n (Some e) = Ok l /\ antisymmetric l /\ strictly_increasing l
  /\ (0 < e -> length l = n /\ nth 0 l 0 = - e /\ nth (n - 1) l 0 = e).
Proof.
  intros x n e N E. unfold symmetric_levels. cbn [bind]. destruct (Req_EM_T e 0) as [Z|Z].
  - exists [-1; 1]. destruct (pair_facts 1 ltac:(lra)) as [P1 P2]. repeat (split; [solve [auto]|]). intros; lra.
  - destruct (levels_facts e n N ltac:(lra)) as [L [P1 [P2 [P3 P4]]]]. eexists. split; [reflexivity|]. auto.
Qed.
Print Assumptions C81_override.
Theorem C81_no_data : forall n, symmetric_levels [] n None = Err ValueError.
Proof. reflexivity. Qed.
Example C81_nonvacuous : (2 <= 10)%nat /\ [1; -3; 2] <> [] /\ exists y, In y [1; -3; 2] /\ y <> 0.
Proof. split; [lia|]. split; [discriminate|]. exists 1. split; [now left|lra]. Qed.

(** ** C82 *)
Definition equally_spaced (l : list Z) (step : Z) : Prop :=
  forall i x y, nth_error l i = Some x -> nth_error l (S i) = Some y -> (y = x + step)%Z.
Lemma step_pos lo hi : lo < hi -> (ceil lo < ceil hi)%Z -> (0 < ceil (IZR (ceil hi - ceil lo) / 10))%Z.
Proof.
  intros H L. apply lt_IZR. pose proof (ceil_spec (IZR (ceil hi - ceil lo) / 10)) as [A _].
  assert (1 <= IZR (ceil hi - ceil lo)) by (apply (IZR_le 1); lia). lra.
Qed.
Lemma ceil_neg lo : lo <= 0 -> (ceil lo <= 0)%Z.
Proof. intros H. pose proof (ceil_spec lo) as [_ B]. assert (ceil lo < 1)%Z by (apply lt_IZR; lra). lia. Qed.
Lemma ceil_pos hi : 0 < hi -> (0 < ceil hi)%Z.
Proof. intros H. pose proof (ceil_spec hi) as [A _]. apply lt_IZR. lra. Qed.

Theorem C82_spacing : forall lo hi l, lo < hi -> wavenumber_ticks lo hi = Ok l ->
  exists step, (0 < step)%Z /\ equally_spaced l step /\ Forall (fun x => lo <= IZR x < hi) l.
Proof.
  intros lo hi l H W. unfold wavenumber_ticks in W. set (s := ceil (IZR (ceil hi - ceil lo) / 10)) in *.
  destruct (Z.eqb_spec s 0) as [Z|Z]; [discriminate|]. injection W as <-.
  assert (LE : (ceil lo <= ceil hi)%Z).
  { pose proof (ceil_spec lo). pose proof (ceil_spec hi). assert (ceil lo < ceil hi + 1)%Z by (apply lt_IZR; rewrite plus_IZR; lra). lia. }
  assert (S : (0 < s)%Z).
  { destruct (Z.eq_dec (ceil lo) (ceil hi)) as [E|E]; [|apply step_pos; [exact H|lia]].
    exfalso. apply Z. unfold s. rewrite E, Z.sub_diag. apply ceil_unique. lra. }
  exists s. split; [exact S|]. split.
  - intros i x y Hx Hy. unfold arange in Hx, Hy. rewrite nth_error_map in Hx, Hy.
    destruct (nth_error (seq _ _) i) as [a|] eqn:A; [|discriminate]. destruct (nth_error (seq _ _) (Datatypes.S i)) as [b|] eqn:B; [|discriminate].
    injection Hx as <-. injection Hy as <-.
    assert (G : forall n q k c, nth_error (seq q n) k = Some c -> c = (q + k)%nat).
    { clear. induction n as [|n IH]; intros q [|k] c Hc; try discriminate; [injection Hc as <-; lia|]. apply IH in Hc. lia. }
    apply G in A, B. subst. lia.
  - apply Forall_forall. intros x Hx. apply arange_in in Hx; [|exact S]. destruct Hx as [[k [K ->]] L].
    pose proof (Z.mod_pos_bound (ceil lo) s S). pose proof (ceil_spec lo) as [A _]. pose proof (ceil_spec hi) as [_ B]. split.
    + apply Rle_trans with (IZR (ceil lo)); [exact A|]. apply IZR_le. nia.
    + assert (IZR (ceil lo + ceil lo mod s + k * s) <= IZR (ceil hi - 1)) by (apply IZR_le; lia). rewrite minus_IZR in H1. lra.
Qed.
Print Assumptions C82_spacing.

(** Exactly when 0 is ticked *)
Theorem C82_zero_iff : forall lo hi, lo <= 0 < hi ->
  let step := ceil (IZR (ceil hi - ceil lo) / 10) in
  exists l, wavenumber_ticks lo hi = Ok l /\ (In 0%Z l <-> (step | 2 * ceil lo)%Z).
Proof.
  intros lo hi H step. pose proof (ceil_neg lo (proj1 H)) as A. pose proof (ceil_pos hi (proj2 H)) as B.
  pose proof (step_pos lo hi ltac:(lra) ltac:(lia)) as S. fold step in S.
  unfold wavenumber_ticks. fold step. destruct (Z.eqb_spec step 0) as [Z|Z]; [lia|]. eexists. split; [reflexivity|].
  rewrite arange_in by exact S. pose proof (Z.div_mod (ceil lo) step ltac:(lia)) as D.
  pose proof (Z.mod_pos_bound (ceil lo) step S) as M. set (q := (ceil lo / step)%Z) in *. set (r := (ceil lo mod step)%Z) in *. split.
  - intros [[k [K E]] _]. exists (q - k)%Z. nia.
  - intros [c E]. split; [|exact B].
    assert (Q : (2 * r = (c - 2 * q) * step)%Z) by lia. assert (T : (c - 2 * q = 0 \/ c - 2 * q = 1)%Z) by nia.
    destruct T as [T|T].
    + exists (- q)%Z. nia.
    + exists (- (q + 1))%Z. assert (q < 0)%Z by nia. nia.
Qed.
Print Assumptions C82_zero_iff.
(** Full claim: 0 is ticked whenever lo <= 0 <= hi. *)
Theorem C82_zero_partial : forall lo hi, lo <= 0 < hi -> (ceil hi - ceil lo <= 20)%Z ->
  exists l, wavenumber_ticks lo hi = Ok l /\ In 0%Z l.
Proof.
  intros lo hi H L. destruct (C82_zero_iff lo hi H) as [l [E I]]. exists l. split; [exact E|]. apply I.
  pose proof (ceil_neg lo (proj1 H)) as A. pose proof (ceil_pos hi (proj2 H)) as B.
  pose proof (step_pos lo hi ltac:(lra) ltac:(lia)) as S.
  assert (U : (ceil (IZR (ceil hi - ceil lo) / 10) <= 2)%Z).
  { pose proof (ceil_spec (IZR (ceil hi - ceil lo) / 10)) as [_ C]. apply IZR_le in L.
    assert (ceil (IZR (ceil hi - ceil lo) / 10) < 3)%Z by (apply lt_IZR; lra). lia. }
  assert (T : (ceil (IZR (ceil hi - ceil lo) / 10) = 1 \/ ceil (IZR (ceil hi - ceil lo) / 10) = 2)%Z) by lia.
  destruct T as [-> | ->]; [exists (2 * ceil lo)%Z|exists (ceil lo)]; lia.
Qed.
Print Assumptions C82_zero_partial.
Theorem C82_default_bounds : forall lim, fst lim <= 0 < snd lim ->
  let '(lo, hi) := clip_limits (-5, 15) lim in exists l, wavenumber_ticks lo hi = Ok l /\ In 0%Z l.
Proof.
  intros [a b] [H1 H2]. cbn [fst snd] in *. unfold clip_limits. cbn [fst snd].
  assert (A : -5 <= Rmax (-5) a <= 0) by (unfold Rmax; destruct (Rle_dec _ _); lra).
  assert (B : 0 < Rmin 15 b <= 15) by (unfold Rmin; destruct (Rle_dec _ _); lra).
  apply C82_zero_partial; [lra|]. pose proof (ceil_spec (Rmax (-5) a)) as [C _]. pose proof (ceil_spec (Rmin 15 b)) as [_ D].
  assert (-5 <= ceil (Rmax (-5) a))%Z by (apply le_IZR; lra). assert (ceil (Rmin 15 b) < 16)%Z by (apply lt_IZR; lra). lia.
Qed.
Print Assumptions C82_default_bounds.
(** Larger steps miss 0 although the comment in the code guarantees it, and so
    does a range that ends at 0. *)
Theorem C82_zero_refuted :
  (exists l, wavenumber_ticks (-5) 20 = Ok l /\ ~ In 0%Z l) /\ (exists l, wavenumber_ticks (-5) 0 = Ok l /\ ~ In 0%Z l).
Proof.
  split.
  - destruct (C82_zero_iff (-5) 20 ltac:(lra)) as [l [E I]]. exists l. split; [exact E|]. rewrite I.
    rewrite (ceil_unique (-5) (-5)), (ceil_unique 20 20) by lra.
    rewrite (ceil_unique _ 3) by (cbn; lra). intros [c Hc]. lia.
  - unfold wavenumber_ticks. rewrite (ceil_unique (-5) (-5)), (ceil_unique 0 0) by lra.
    rewrite (ceil_unique _ 1) by (cbn; lra). cbn [Z.eqb]. eexists. split; [reflexivity|]. vm_compute. intuition discriminate.
Qed.
Print Assumptions C82_zero_refuted.
Example C82_nonvacuous : -3.5 <= 0 < 12.2 /\ (ceil 12.2 - ceil (-3.5) <= 20)%Z /\ exists l, wavenumber_ticks (-3.5) 12.2 = Ok l.
Proof.
  rewrite (ceil_unique 12.2 13), (ceil_unique (-3.5) (-3)) by lra. split; [lra|]. split; [lia|].
  destruct (C82_zero_iff (-3.5) 12.2 ltac:(lra)) as [l [E _]]. eauto.
Qed.

(** ** C83 *)
(** The kept gridpoints are (start + i * step, start + j * step) in all arrays *)
Definition kept_at {A} (start step : nat) (m m' : list (list A)) : Prop :=
  forall i j, entry m' i j = entry m (start + i * step) (start + j * step).
Theorem C83_same_points : forall x y u v ny x' y' u' v', reduce_vectors x y u v ny = Ok (x', y', u', v') ->
  exists step, (1 <= step)%nat /\ kept_at (step / 2) step x x' /\ kept_at (step / 2) step y y'
    /\ kept_at (step / 2) step u u' /\ kept_at (step / 2) step v v'.
Proof.
  intros x y u v ny x' y' u' v' H. unfold reduce_vectors in H. destruct (ny =? 0)%Z; [discriminate|].
  injection H as <- <- <- <-. exists (spacing_of (length y) ny). pose proof (spacing_pos (length y) ny) as P.
  split; [exact P|]. repeat split; intros i j; now apply slice2_entry.
Qed.
Print Assumptions C83_same_points.
Lemma slice2_one {A} (m : list (list A)) : slice2 (1 / 2) 1 m = m.
Proof.
  assert (Q : forall B (l : list B), np_slice (1 / 2) 1 l = l).
  { intros B l. apply nth_error_same. intros i. rewrite np_slice_nth by lia. f_equal. cbn. lia. }
  unfold slice2. rewrite Q. rewrite <- (map_id m) at 2. apply map_ext. intros r. apply Q.
Qed.
Theorem C83_row_bounds : forall x y u v ny x' y' u' v', reduce_vectors x y u v ny = Ok (x', y', u', v') ->
  ((1 <= ny <= Z.of_nat (length y))%Z -> (ny <= Z.of_nat (length y') < 2 * ny)%Z)
  /\ ((Z.of_nat (length y) < ny)%Z -> (x', y', u', v') = (x, y, u, v)).
Proof.
  intros x y u v ny x' y' u' v' H. unfold reduce_vectors in H. destruct (Z.eqb_spec ny 0) as [Z|Z]; [discriminate|].
  split.
  - intros B. assert (y' = slice2 (spacing_of (length y) ny / 2) (spacing_of (length y) ny) y) as -> by congruence.
    unfold slice2. rewrite map_length. pose proof (kept_rows y (Z.to_nat ny) ltac:(lia)) as K. cbn zeta in K.
    rewrite Z2Nat.id in K by lia. lia.
  - intros B. assert (S : spacing_of (length y) ny = 1%nat).
    { unfold spacing_of. rewrite Z.div_small by lia. reflexivity. }
    rewrite S, !slice2_one in H. congruence.
Qed.
Print Assumptions C83_row_bounds.
(** At least one point is kept on every grid.  Full claim: for all shapes. *)
Theorem C83_nonempty_partial : forall res rs om nt g x y u v ny x' y' u' v', mk_grid res rs om nt = Ok g -> (1 <= ny)%Z ->
  shaped (g_nlat g) (g_nlon g) y ->
  reduce_vectors x y u v ny = Ok (x', y', u', v') -> entry y' 0 0 <> None.
Proof.
  intros res rs om nt g x y u v ny x' y' u' v' G N [S1 S2] H.
  destruct (C83_same_points _ _ _ _ _ _ _ _ _ H) as [_ _]. unfold reduce_vectors in H.
  destruct (Z.eqb_spec ny 0) as [Z|Z]; [discriminate|]. assert (y' = slice2 (spacing_of (length y) ny / 2) (spacing_of (length y) ny) y) as -> by congruence. clear H.
  rewrite slice2_entry by apply spacing_pos. rewrite !Nat.mul_0_l, Nat.add_0_r. unfold spacing_of. rewrite S1.
  set (s := Z.to_nat _). pose proof (nlon_ne_nlat _ _ _ _ _ G) as L. pose proof (gf_nlat3 _ _ _ _ (mk_grid_facts _ _ _ _ _ G)) as L3.
  assert (B : (s / 2 < g_nlat g)%nat).
  { assert (s <= g_nlat g)%nat.
    { unfold s. assert (Z.of_nat (g_nlat g) / ny <= Z.of_nat (g_nlat g))%Z; [|lia].
      apply Z.div_le_upper_bound; nia. }
    pose proof (Nat.div_lt (g_nlat g) 2 ltac:(lia) ltac:(lia)). pose proof (Nat.div_le_mono s (g_nlat g) 2 ltac:(lia) H). lia. }
  unfold entry. destruct (nth_error y (s / 2)) as [r|] eqn:E; [|apply nth_error_None in E; lia].
  assert (length r = g_nlon g). { rewrite Forall_forall in S2. apply S2. eapply nth_error_In, E. }
  apply (proj2 (nth_error_Some _ _)). lia.
Qed.
Print Assumptions C83_nonempty_partial.
(** A tall and narrow array loses all its points. *)
Theorem C83_nonempty_refuted : exists y : mat, shaped 10 4 y /\
  exists r, reduce_vectors y y y y 1 = Ok (r, r, r, r) /\ forall i j, entry r i j = None.
Proof.
  exists (repeat [1; 2; 3; 4] 10). split; [split; [reflexivity|]; repeat constructor|].
  eexists. split; [reflexivity|]. intros i j. rewrite repeat_length.
  change (spacing_of 10 1) with 10%nat. rewrite slice2_entry by lia. change (10 / 2)%nat with 5%nat.
  unfold entry. destruct (nth_error (repeat [1; 2; 3; 4] 10) (5 + i * 10)) as [r|] eqn:E; [|reflexivity].
  apply nth_error_In, repeat_spec in E. subst r. apply nth_error_None. cbn. lia.
Qed.
Print Assumptions C83_nonempty_refuted.
Example C83_nonvacuous : mk_grid 90 1 0 None = Ok (gridA 1) /\ shaped (g_nlat (gridA 1)) (g_nlon (gridA 1)) (g_lat2 (gridA 1))
  /\ exists r, reduce_vectors (g_lon2 (gridA 1)) (g_lat2 (gridA 1)) (g_lat2 (gridA 1)) (g_lat2 (gridA 1)) 2 = Ok r.
Proof. split; [apply gridA_ok; lra|]. split; [apply lat2_shaped|]. eexists. reflexivity. Qed.

(** ** C84 *)
Section Hovmoeller.
Context {K : numtype}.
Variable f : state K -> res vec.
Definition profiles (states : list (state K)) (fields : list vec) (n : nat) : Prop :=
  Forall2 (fun s v => f s = Ok v) states fields /\ Forall (fun v => length v = n) fields.
Lemma hov_unfold s0 states fields n : profiles (s0 :: states) fields n ->
  res_map f (s0 :: states) = Ok fields /\ length (hd nil fields) = n /\ np_stack1 fields = Ok fields /\ length fields = length (s0 :: states).
Proof.
  intros [P L]. split; [now apply res_map_ok|]. pose proof (Forall2_len _ _ _ P) as E. inversion P; subst. split; [now inversion L|].
  split; [|auto]. eapply stack1_ok; [discriminate|exact L].
Qed.
End Hovmoeller.
Theorem C84_zonal : forall K (f : state K -> res vec) s0 states fields,
  profiles f (s0 :: states) fields (g_nlon (s_grid s0)) ->
  hovmoellerify (s0 :: states) f = Ok (TimeOnY (g_lon (s_grid s0)) (map s_time (s0 :: states)) fields).
Proof.
  intros K f s0 states fields P. destruct (hov_unfold f _ _ _ _ P) as [M [L [S _]]].
  unfold hovmoellerify. rewrite M. cbn [bind]. rewrite L, Nat.eqb_refl, S. reflexivity.
Qed.
Print Assumptions C84_zonal.
Theorem C84_meridional : forall K (f : state K -> res vec) s0 states fields res rs om nt,
  mk_grid res rs om nt = Ok (s_grid s0) ->
  profiles f (s0 :: states) fields (g_nlat (s_grid s0)) ->
  exists field, hovmoellerify (s0 :: states) f = Ok (TimeOnX (map s_time (s0 :: states)) (g_lat (s_grid s0)) field)
  /\ shaped (g_nlat (s_grid s0)) (length (s0 :: states)) field
  /\ forall i t, (i < g_nlat (s_grid s0))%nat -> (t < length (s0 :: states))%nat -> mget field i t = mget fields t i.
Proof.
  intros K f s0 states fields res rs om nt G P. destruct (hov_unfold f _ _ _ _ P) as [M [L [S E]]].
  unfold hovmoellerify. rewrite M. cbn [bind]. rewrite L. pose proof (nlon_ne_nlat _ _ _ _ _ G).
  destruct (Nat.eqb_spec (g_nlat (s_grid s0)) (g_nlon (s_grid s0))); [lia|]. rewrite Nat.eqb_refl, S.
  assert (Sh : shaped (length (s0 :: states)) (g_nlat (s_grid s0)) fields) by (split; [exact E|apply P]).
  eexists. split; [reflexivity|]. split; [now apply transpose_shaped|]. intros. eapply transpose_get; eauto.
Qed.
Print Assumptions C84_meridional.
Theorem C84_rejected : forall K (f : state K -> res vec),
  hovmoellerify [] f = Err ValueError
  /\ forall s0 states fields, Forall2 (fun s v => f s = Ok v) (s0 :: states) fields ->
     ((length (hd [] fields) <> g_nlon (s_grid s0) /\ length (hd [] fields) <> g_nlat (s_grid s0))
      \/ exists v, In v fields /\ length v <> length (hd [] fields)) ->
     hovmoellerify (s0 :: states) f = Err ValueError.
Proof.
  intros K f. split; [reflexivity|]. intros s0 states fields F H. unfold hovmoellerify.
  rewrite (proj2 (res_map_ok f _ _) F). cbn [bind]. destruct H as [[H1 H2]|[v [Iv Lv]]].
  - destruct (Nat.eqb_spec (length (hd [] fields)) (g_nlon (s_grid s0))); [lia|].
    destruct (Nat.eqb_spec (length (hd [] fields)) (g_nlat (s_grid s0))); [lia|]. reflexivity.
  - assert (S : np_stack1 fields = Err ValueError).
    { destruct fields as [|a l]; [destruct Iv|]. unfold np_stack1. cbn [hd] in Lv.
      destruct (forallb _ _) eqn:B; [|reflexivity]. rewrite forallb_forall in B. specialize (B v Iv). apply Nat.eqb_eq in B. lia. }
    rewrite S. destruct (Nat.eqb _ _); [reflexivity|]. destruct (Nat.eqb _ _); reflexivity.
Qed.
Print Assumptions C84_rejected.
Example C84_nonvacuous : let s t := mkState (d1_grid 1 1) (@VNum numR t) [] in
  mk_grid 90 1 1 (Some 1%Z) = Ok (s_grid (s 0))
  /\ profiles (fun _ => Ok [1; 2; 3]) [s 0; s 5] [[1; 2; 3]; [1; 2; 3]] (g_nlat (s_grid (s 0)))
  /\ profiles (fun _ => Ok [1; 2; 3; 4]) [s 0; s 5] [[1; 2; 3; 4]; [1; 2; 3; 4]] (g_nlon (s_grid (s 0))).
Proof. cbn zeta. split; [apply d1_grid_ok; lra|]. split; split; repeat constructor. Qed.
