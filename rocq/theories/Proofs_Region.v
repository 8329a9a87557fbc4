From Verif Require Import Base Model_Grid Model_Region Spec_Grid Spec_Region Proofs_Base Proofs_Grid.
From Coq Require Import Lia Lra Psatz Arith.

(** ** gridpoint areas (C06) *)
Lemma gpa_length g : length (gridpoint_area g) = g_nlat g.
Proof. apply tab_length. Qed.

Section Area.
Variables (res rs om : R) (nt : option Z) (g : grid).
Hypothesis Hg : mk_grid res rs om nt = Ok g.
Let F := mk_grid_facts _ _ _ _ _ Hg.

Lemma nlatm1_pos : 2 <= INR (g_nlat g - 1).
Proof.
  replace 2 with (INR 2) by reflexivity. apply le_INR. pose proof (gf_nlat3 _ _ _ _ F). lia.
Qed.
Lemma nlon_ge4 : 4 <= INR (g_nlon g).
Proof.
  replace 4 with (INR 4) by (simpl; ring). apply le_INR. exact (gf_nlon4 _ _ _ _ F).
Qed.
Lemma nlat_lt_nlon : (g_nlat g < g_nlon g)%nat.
Proof.
  pose proof (gf_nlat3 _ _ _ _ F). pose proof (gf_nlon_hi _ _ _ _ F).
  pose proof (gf_nlat_lo _ _ _ _ F). pose proof (gf_res_pos _ _ _ _ F).
  assert (360 / res = 2 * (180 / res)) by (field; lra).
  assert (INR (2 * (g_nlat g - 1)) < INR (g_nlon g + 1)).
  { rewrite plus_INR, mult_INR. simpl (INR 2). simpl (INR 1). lra. }
  apply INR_lt in H4. lia.
Qed.

Lemma phi_val i : (i < g_nlat g)%nat ->
  nth i (g_phi g) 0 = PI / 2 - INR i * (PI / INR (g_nlat g - 1)).
Proof.
  intros Hi. rewrite phi_nth, lat_nth by auto. unfold deg2rad.
  pose proof nlatm1_pos. field. lra.
Qed.

Lemma mid_phi_val i : (S i < g_nlat g)%nat ->
  mid_phi g i = PI / 2 - (INR i + / 2) * (PI / INR (g_nlat g - 1)).
Proof.
  intros Hi. unfold mid_phi. rewrite !phi_val by lia. rewrite S_INR.
  pose proof nlatm1_pos. field. lra.
Qed.

Lemma mid_phi_range i : (S i < g_nlat g)%nat -> - (PI / 2) < mid_phi g i < PI / 2.
Proof.
  intros Hi. rewrite mid_phi_val by auto. pose proof nlatm1_pos as Hn. pose proof PI_RGT_0.
  assert (Hd : 0 < PI / INR (g_nlat g - 1)) by (apply Rdiv_lt_0_compat; lra).
  pose proof (pos_INR i).
  assert (INR i + 1 <= INR (g_nlat g - 1)). { rewrite <- S_INR. apply le_INR. lia. }
  assert (E : PI = INR (g_nlat g - 1) * (PI / INR (g_nlat g - 1))) by (field; lra).
  set (d := PI / INR (g_nlat g - 1)) in *. split; [|nra].
  assert ((INR i + / 2) * d < PI); [|lra]. rewrite E. apply Rmult_lt_compat_r; lra.
Qed.

Lemma mid_phi_decr i j : (i < j)%nat -> (S j < g_nlat g)%nat -> mid_phi g j < mid_phi g i.
Proof.
  intros Hij Hj. rewrite !mid_phi_val by lia. pose proof nlatm1_pos. pose proof PI_RGT_0.
  assert (Hd : 0 < PI / INR (g_nlat g - 1)) by (apply Rdiv_lt_0_compat; lra).
  assert (INR i < INR j) by now apply lt_INR. nra.
Qed.

Lemma dlam_pos : 0 < g_dlam g.
Proof.
  unfold g_dlam, g_dlon. rewrite <- deg2rad_0. apply (proj1 (deg2rad_lt _ _)).
  rewrite (gf_res _ _ _ _ F). exact (gf_res_pos _ _ _ _ F).
Qed.

(** bounds of the gridpoint in latitude *)
Definition north_edge i := if Nat.eqb i 0 then PI / 2 else mid_phi g (i - 1).
Definition south_edge i := if Nat.eqb i (g_nlat g - 1) then - (PI / 2) else mid_phi g i.

Lemma gpa_val i : (i < g_nlat g)%nat ->
  nth i (gridpoint_area g) 0 = sector_area rs (g_dlam g) (north_edge i) (south_edge i).
Proof.
  intros Hi. unfold gridpoint_area. rewrite tab_nth by auto.
  pose proof (gf_nlat3 _ _ _ _ F). rewrite (gf_rs _ _ _ _ F).
  unfold sector_area, north_edge, south_edge.
  destruct (Nat.eqb_spec i 0) as [->|Hi0].
  - destruct (Nat.eqb_spec 0 (g_nlat g - 1)); [lia|]. rewrite sin_PI2. ring.
  - destruct (Nat.eqb_spec i (g_nlat g - 1)) as [->|Hin].
    + rewrite sin_neg, sin_PI2.
      replace (g_nlat g - 1 - 1)%nat with (g_nlat g - 2)%nat by lia. ring.
    + ring.
Qed.

Lemma edges_order i : (i < g_nlat g)%nat ->
  - (PI / 2) <= south_edge i /\ south_edge i < north_edge i /\ north_edge i <= PI / 2.
Proof.
  intros Hi. pose proof PI_RGT_0. pose proof (gf_nlat3 _ _ _ _ F).
  unfold north_edge, south_edge.
  destruct (Nat.eqb_spec i 0) as [E0|Hi0]; destruct (Nat.eqb_spec i (g_nlat g - 1)) as [E|Hin]; try lia.
  - subst i. assert (H1 : (1 < g_nlat g)%nat) by lia. pose proof (mid_phi_range 0 H1). lra.
  - assert (H1 : (S (i - 1) < g_nlat g)%nat) by lia. pose proof (mid_phi_range (i - 1) H1). lra.
  - assert (H1 : (S (i - 1) < g_nlat g)%nat) by lia. pose proof (mid_phi_range (i - 1) H1).
    assert (H3 : (S i < g_nlat g)%nat) by lia. pose proof (mid_phi_range i H3).
    assert (H5 : (i - 1 < i)%nat) by lia. pose proof (mid_phi_decr (i - 1) i H5 H3). lra.
Qed.

Lemma gpa_pos i : (i < g_nlat g)%nat -> 0 < nth i (gridpoint_area g) 0.
Proof.
  intros Hi. rewrite gpa_val by auto. unfold sector_area.
  destruct (edges_order i Hi) as [H1 [H2 H3]].
  assert (sin (south_edge i) < sin (north_edge i)) by (apply sin_increasing_1; lra).
  pose proof dlam_pos. pose proof (gf_rs_pos _ _ _ _ F).
  apply Rmult_lt_0_compat; [|lra]. apply Rmult_lt_0_compat; [|auto]. now apply Rmult_lt_0_compat.
Qed.

Lemma edges_sym i : (i < g_nlat g)%nat -> north_edge (g_nlat g - 1 - i) = - south_edge i.
Proof.
  intros Hi. pose proof (gf_nlat3 _ _ _ _ F). unfold north_edge, south_edge.
  destruct (Nat.eqb_spec (g_nlat g - 1 - i) 0); destruct (Nat.eqb_spec i (g_nlat g - 1)); try lia.
  - lra.
  - rewrite !mid_phi_val by lia. pose proof nlatm1_pos.
    replace (g_nlat g - 1 - i - 1)%nat with (g_nlat g - 1 - S i)%nat by lia.
    rewrite (minus_INR (g_nlat g - 1) (S i)) by lia. rewrite S_INR. field. lra.
Qed.

Lemma gpa_sym i : (i < g_nlat g)%nat ->
  nth i (gridpoint_area g) 0 = nth (g_nlat g - 1 - i) (gridpoint_area g) 0.
Proof.
  intros Hi. rewrite !gpa_val by lia. unfold sector_area.
  rewrite edges_sym by auto.
  replace (south_edge (g_nlat g - 1 - i)) with (- north_edge i).
  - rewrite !sin_neg. ring.
  - rewrite <- (Ropp_involutive (south_edge _)). rewrite <- edges_sym by lia.
    now replace (g_nlat g - 1 - (g_nlat g - 1 - i))%nat with i by lia.
Qed.

Lemma Rsum_edges (f : nat -> R) n : Rsum (tab n (fun i => f i - f (S i))) = f 0%nat - f n.
Proof.
  rewrite <- (Ropp_involutive (Rsum _)).
  assert (- Rsum (tab n (fun i => f i - f (S i))) = f n - f 0%nat); [|lra].
  rewrite <- (Rsum_telescope n f).
  replace (- Rsum (tab n (fun i => f i - f (S i)))) with (-1 * Rsum (tab n (fun i => f i - f (S i)))) by ring.
  rewrite <- Rsum_tab_scal. f_equal. apply tab_ext. intros; ring.
Qed.

Lemma gpa_sum : Rsum (gridpoint_area g) = 2 * rs * rs * g_dlam g.
Proof.
  pose proof (gf_nlat3 _ _ _ _ F).
  rewrite (nth_ext_tab (gridpoint_area g) 0), gpa_length.
  rewrite (tab_ext _ _ (fun i => rs * rs * g_dlam g *
     (sin (north_edge i) - sin (if Nat.eqb (S i) (g_nlat g) then - (PI / 2) else north_edge (S i))))).
  - rewrite Rsum_tab_scal.
    rewrite (tab_ext _ _ (fun i => (fun k => if Nat.eqb k (g_nlat g) then sin (- (PI / 2)) else sin (north_edge k)) i
       - (fun k => if Nat.eqb k (g_nlat g) then sin (- (PI / 2)) else sin (north_edge k)) (S i))).
    + rewrite Rsum_edges. rewrite Nat.eqb_refl.
      destruct (Nat.eqb_spec 0 (g_nlat g)); [lia|]. unfold north_edge. simpl.
      rewrite sin_neg, sin_PI2. ring.
    + intros i Hi. cbv beta. destruct (Nat.eqb_spec i (g_nlat g)); [lia|].
      destruct (Nat.eqb (S i) (g_nlat g)); reflexivity.
  - intros i Hi. rewrite gpa_val by auto. unfold sector_area. do 3 f_equal.
    unfold south_edge, north_edge.
    destruct (Nat.eqb_spec (S i) (g_nlat g)); destruct (Nat.eqb_spec i (g_nlat g - 1)); try lia; auto.
    simpl Nat.eqb. cbv iota. now replace (S i - 1)%nat with i by lia.
Qed.

Lemma gpa_total : INR (g_nlon g) * Rsum (gridpoint_area g)
  = 4 * PI * (rs * rs) * (INR (g_nlon g) * res / 360).
Proof.
  rewrite gpa_sum. unfold g_dlam, g_dlon, deg2rad. rewrite (gf_res _ _ _ _ F). field.
Qed.

Lemma gpa_total_iff :
  INR (g_nlon g) * Rsum (gridpoint_area g) = 4 * PI * (rs * rs) <-> is_integer (360 / res).
Proof.
  rewrite gpa_total. pose proof (gf_res_pos _ _ _ _ F). pose proof PI_RGT_0.
  pose proof (gf_rs_pos _ _ _ _ F).
  assert (0 < 4 * PI * (rs * rs)).
  { apply Rmult_lt_0_compat; [lra|]. now apply Rmult_lt_0_compat. }
  split.
  - intros E. exists (Z.of_nat (g_nlon g)). rewrite <- INR_IZR_INZ.
    assert (INR (g_nlon g) * res / 360 = 1).
    { apply (Rmult_eq_reg_l (4 * PI * (rs * rs))); lra. }
    assert (INR (g_nlon g) * res = 360) by lra.
    rewrite <- H4. field. lra.
  - intros Hi. rewrite <- (integer_floor (360 / res) (g_nlon g)).
    + field. lra.
    + split; [exact (gf_nlon_lo _ _ _ _ F)|exact (gf_nlon_hi _ _ _ _ F)].
    + exact Hi.
Qed.
End Area.

(** ** picking coordinates *)
Lemma take_pick_gen coord p (pre : list R) :
  map (fun i => nth i (pre ++ coord) 0)
      (filter (fun i => p (nth i (pre ++ coord) 0)) (seq (length pre) (length coord)))
  = filter p coord.
Proof.
  revert pre; induction coord as [|x coord IH]; intros pre; [reflexivity|].
  cbn [length seq filter].
  assert (E : nth (length pre) (pre ++ x :: coord) 0 = x).
  { rewrite app_nth2 by lia. now rewrite Nat.sub_diag. }
  specialize (IH (pre ++ [x])). rewrite app_length in IH. simpl length in IH.
  rewrite Nat.add_1_r in IH. rewrite <- app_assoc in IH. simpl app in IH.
  rewrite E. destruct (p x).
  - cbn [map]. rewrite E. now f_equal.
  - exact IH.
Qed.
Lemma take_pick coord p : take_idx 0 coord (pick coord p) = filter p coord.
Proof. exact (take_pick_gen coord p []). Qed.

Lemma take_seq coord : take_idx 0 coord (seq 0 (length coord)) = coord.
Proof.
  unfold take_idx. change (tab (length coord) (fun i => nth i coord 0) = coord).
  symmetry. apply nth_ext_tab.
Qed.

Lemma take_app {A} (d : A) v a b : take_idx d v (a ++ b) = take_idx d v a ++ take_idx d v b.
Proof. apply map_app. Qed.

Lemma pick_lt coord p i : In i (pick coord p) -> (i < length coord)%nat.
Proof. unfold pick. rewrite filter_In, in_seq. lia. Qed.
Lemma pick_NoDup coord p : NoDup (pick coord p).
Proof. apply NoDup_filter, seq_NoDup. Qed.
Lemma filter_length_le' {A} (p : A -> bool) l : (length (filter p l) <= length l)%nat.
Proof. induction l as [|x l IH]; simpl; [lia|]. destruct (p x); simpl; lia. Qed.
Lemma pick_length_le coord p : (length (pick coord p) <= length coord)%nat.
Proof.
  unfold pick. rewrite <- (seq_length (length coord) 0) at 2. apply filter_length_le'.
Qed.

(** ** strictly monotone lists *)
Lemma si_cons x l : strictly_increasing (x :: l) <->
  strictly_increasing l /\ (forall y, In y l -> x < y).
Proof.
  split.
  - intros H. split.
    + intros i j Hij Hj. apply (H (S i) (S j)); simpl; lia.
    + intros y Hy. apply (In_nth _ _ 0) in Hy. destruct Hy as [k [Hk <-]].
      apply (H 0%nat (S k)); simpl; lia.
  - intros [H1 H2] i j Hij Hj. destruct j as [|j]; [lia|]. simpl in Hj.
    destruct i as [|i]; simpl.
    + apply H2, nth_In. lia.
    + apply H1; lia.
Qed.
Lemma si_nil : strictly_increasing [].
Proof. intros i j _ H; simpl in H; lia. Qed.
Lemma si_filter p l : strictly_increasing l -> strictly_increasing (filter p l).
Proof.
  induction l as [|x l IH]; intros H; [exact si_nil|].
  apply si_cons in H. destruct H as [H1 H2]. simpl. destruct (p x); [|auto].
  apply si_cons. split; auto. intros y Hy. apply filter_In in Hy. apply H2. tauto.
Qed.
Lemma si_app a b : strictly_increasing a -> strictly_increasing b ->
  (forall x y, In x a -> In y b -> x < y) -> strictly_increasing (a ++ b).
Proof.
  induction a as [|x a IH]; intros Ha Hb Hab; [exact Hb|]. simpl.
  apply si_cons in Ha. destruct Ha as [Ha1 Ha2]. apply si_cons. split.
  - apply IH; auto. intros; apply Hab; simpl; auto.
  - intros y Hy. apply in_app_or in Hy. destruct Hy; auto. apply Hab; simpl; auto.
Qed.
Lemma sd_cons x l : strictly_decreasing (x :: l) <->
  strictly_decreasing l /\ (forall y, In y l -> y < x).
Proof.
  split.
  - intros H. split.
    + intros i j Hij Hj. apply (H (S i) (S j)); simpl; lia.
    + intros y Hy. apply (In_nth _ _ 0) in Hy. destruct Hy as [k [Hk <-]].
      apply (H 0%nat (S k)); simpl; lia.
  - intros [H1 H2] i j Hij Hj. destruct j as [|j]; [lia|]. simpl in Hj.
    destruct i as [|i]; simpl.
    + apply H2, nth_In. lia.
    + apply H1; lia.
Qed.
Lemma sd_nil : strictly_decreasing [].
Proof. intros i j _ H; simpl in H; lia. Qed.
Lemma sd_filter p l : strictly_decreasing l -> strictly_decreasing (filter p l).
Proof.
  induction l as [|x l IH]; intros H; [exact sd_nil|].
  apply sd_cons in H. destruct H as [H1 H2]. simpl. destruct (p x); [|auto].
  apply sd_cons. split; auto. intros y Hy. apply filter_In in Hy. apply H2. tauto.
Qed.
Lemma si_map_sub c l : strictly_increasing l -> strictly_increasing (map (fun x => x - c) l).
Proof.
  induction l as [|x l IH]; intros H; [exact si_nil|].
  apply si_cons in H. destruct H as [H1 H2]. simpl. apply si_cons. split; auto.
  intros y Hy. apply in_map_iff in Hy. destruct Hy as [z [<- Hz]]. apply H2 in Hz. lra.
Qed.

Lemma filter_false {A} (p : A -> bool) l : (forall x, In x l -> p x = false) -> filter p l = [].
Proof.
  induction l as [|x l IH]; intros H; [auto|]. simpl. rewrite (H x) by (simpl; auto).
  apply IH. intros; apply H; simpl; auto.
Qed.

Lemma filter_true {A} (p : A -> bool) l : (forall x, In x l -> p x = true) -> filter p l = l.
Proof.
  induction l as [|x l IH]; intros H; [auto|]. simpl. rewrite (H x) by (simpl; auto).
  f_equal. apply IH. intros; apply H; simpl; auto.
Qed.

(** ** roll *)
Lemma roll_app {A} (a b : list A) : roll (a ++ b) (length b) = b ++ a.
Proof.
  unfold roll. rewrite app_length.
  destruct (length a + length b)%nat as [|n] eqn:E.
  { destruct a, b; simpl in *; try lia. reflexivity. }
  rewrite <- E. destruct (Nat.eq_dec (length a) 0) as [Ha|Ha].
  - destruct a; [|simpl in Ha; lia]. simpl. rewrite Nat.mod_same by (simpl in E; lia).
    rewrite Nat.sub_0_r, skipn_all, firstn_all. now rewrite app_nil_r.
  - rewrite Nat.mod_small by lia. replace (length a + length b - length b)%nat with (length a) by lia.
    rewrite skipn_app, firstn_app, Nat.sub_diag, skipn_all, firstn_all. simpl. now rewrite app_nil_r.
Qed.

(** ** coordinates of a grid *)
Lemma lon_increasing g : (0 < g_nlon g)%nat -> strictly_increasing (g_lon g).
Proof.
  intros Hn i j Hij Hj. rewrite lon_length in Hj. rewrite !lon_nth by lia.
  assert (0 < INR (g_nlon g)) by (apply lt_0_INR; lia).
  assert (0 < 360 / INR (g_nlon g)) by (apply Rdiv_lt_0_compat; lra).
  apply Rmult_lt_compat_r; auto. now apply lt_INR.
Qed.
Lemma lat_decreasing g : (1 < g_nlat g)%nat -> strictly_decreasing (g_lat g).
Proof.
  intros Hn i j Hij Hj. rewrite lat_length in Hj. rewrite !lat_nth by lia.
  assert (0 < INR (g_nlat g - 1)) by (apply lt_0_INR; lia).
  assert (0 < 180 / INR (g_nlat g - 1)) by (apply Rdiv_lt_0_compat; lra).
  assert (INR i < INR j) by now apply lt_INR.
  replace (-180 / INR (g_nlat g - 1)) with (- (180 / INR (g_nlat g - 1))) by (field; lra). nra.
Qed.
Lemma lon_bounds g x : In x (g_lon g) -> 0 <= x < 360.
Proof.
  intros H. apply (In_nth _ _ 0) in H. destruct H as [i [Hi <-]]. rewrite lon_length in Hi.
  rewrite lon_nth by auto. assert (0 < INR (g_nlon g)) by (apply lt_0_INR; lia).
  assert (Hd : 0 < 360 / INR (g_nlon g)) by (apply Rdiv_lt_0_compat; lra).
  pose proof (pos_INR i). split; [nra|].
  assert (INR i < INR (g_nlon g)) by now apply lt_INR.
  replace 360 with (INR (g_nlon g) * (360 / INR (g_nlon g))) at 2 by (field; lra).
  now apply Rmult_lt_compat_r.
Qed.
Lemma lat_bounds g y : In y (g_lat g) -> -90 <= y <= 90.
Proof.
  intros H. apply (In_nth _ _ 0) in H. destruct H as [i [Hi <-]]. rewrite lat_length in Hi.
  rewrite lat_nth by auto. destruct (Nat.eq_dec (g_nlat g - 1) 0) as [E|E].
  - replace i with 0%nat by lia. simpl. lra.
  - assert (0 < INR (g_nlat g - 1)) by (apply lt_0_INR; lia).
    assert (Hd : 0 < 180 / INR (g_nlat g - 1)) by (apply Rdiv_lt_0_compat; lra).
    pose proof (pos_INR i). assert (INR i <= INR (g_nlat g - 1)) by (apply le_INR; lia).
    replace (-180 / INR (g_nlat g - 1)) with (- (180 / INR (g_nlat g - 1))) by (field; lra).
    assert (180 = INR (g_nlat g - 1) * (180 / INR (g_nlat g - 1))) by (field; lra).
    set (d := 180 / INR (g_nlat g - 1)) in *. nra.
Qed.

(** ** latitude selection (C47) *)
Lemma lat_range_spec g lo hi : take_idx 0 (g_lat g) (lat_range g lo hi) =
  filter (fun y => match lo, hi with
                   | None, None => true
                   | None, Some h => Rleb y h
                   | Some l, None => Rleb l y
                   | Some l, Some h => Rleb (Rmin l h) y && Rleb y (Rmax l h)
                   end) (g_lat g).
Proof.
  unfold lat_range. destruct lo, hi; try apply take_pick.
  rewrite <- (lat_length g), take_seq. symmetry.
  now apply filter_true.
Qed.

Lemma filter_exactly p P l : (forall x, p x = true <-> P x) -> exactly l P (filter p l).
Proof. intros H x. rewrite filter_In, H. tauto. Qed.

(** ** longitude selection (C48) *)
Lemma filter_split_sorted l h lo : strictly_increasing l -> h < lo ->
  filter (fun x => Rleb x h || Rleb lo x) l
  = filter (fun x => Rleb x h) l ++ filter (fun x => Rleb lo x) l.
Proof.
  intros Hs Hhl. induction l as [|x l IH]; [reflexivity|].
  apply si_cons in Hs. destruct Hs as [H1 H2]. specialize (IH H1). simpl.
  destruct (Rleb_spec x h) as [Hx|Hx].
  - replace (Rleb lo x) with false by (symmetry; apply Rleb_false; lra). simpl. now rewrite IH.
  - rewrite (filter_false (fun x => Rleb x h)) in IH |- *.
    + simpl in *. destruct (Rleb lo x); now rewrite IH.
    + intros y Hy. apply Rleb_false. apply H2 in Hy. lra.
    + intros y Hy. apply Rleb_false. apply H2 in Hy. lra.
Qed.

Lemma pick_split_sorted l h lo : strictly_increasing l -> h < lo ->
  pick l (fun x => Rleb x h || Rleb lo x) = pick l (fun x => Rleb x h) ++ pick l (fun x => Rleb lo x).
Proof.
  intros Hs Hhl. unfold pick.
  assert (G : forall n s, (s + n <= length l)%nat ->
    filter (fun i => Rleb (nth i l 0) h || Rleb lo (nth i l 0)) (seq s n)
    = filter (fun i => Rleb (nth i l 0) h) (seq s n) ++ filter (fun i => Rleb lo (nth i l 0)) (seq s n)).
  { induction n as [|n IH]; intros s Hsn; [reflexivity|]. cbn [seq filter].
    specialize (IH (S s)). 
    destruct (Rleb_spec (nth s l 0) h) as [Hx|Hx].
    - replace (Rleb lo (nth s l 0)) with false by (symmetry; apply Rleb_false; lra).
      simpl. rewrite IH by lia. reflexivity.
    - rewrite (filter_false (fun i => Rleb (nth i l 0) h)) in IH |- *.
      + simpl in *. destruct (Rleb lo (nth s l 0)); rewrite IH by lia; reflexivity.
      + intros i Hi. apply in_seq in Hi. apply Rleb_false.
        assert (nth s l 0 < nth i l 0) by (apply Hs; lia). lra.
      + intros i Hi. apply in_seq in Hi. apply Rleb_false.
        assert (nth s l 0 < nth i l 0) by (apply Hs; lia). lra. }
  apply G. lia.
Qed.

Lemma lon_range_wrap g l h : (0 < g_nlon g)%nat -> h < l ->
  lon_range g (Some l) (Some h) = pick (g_lon g) (fun x => Rleb l x) ++ pick (g_lon g) (fun x => Rleb x h).
Proof.
  intros Hn Hhl. unfold lon_range.
  replace (Rltb h l) with true by (symmetry; now apply Rltb_true).
  rewrite pick_split_sorted by (auto; now apply lon_increasing). apply roll_app.
Qed.

(** All lists of longitudes the indexer can produce: an increasing part west of
    the 0-meridian crossing followed by an increasing part east of it. *)
Lemma lon_range_shape g lo hi : (0 < g_nlon g)%nat ->
  exists W E, take_idx 0 (g_lon g) (lon_range g lo hi) = W ++ E
    /\ strictly_increasing W /\ strictly_increasing E
    /\ (forall x, In x W -> In x (g_lon g)) /\ (forall x, In x E -> In x (g_lon g))
    /\ (forall x y, In x W -> In y E -> y < x).
Proof.
  intros Hn. pose proof (lon_increasing g Hn) as Hs.
  assert (G : forall p, exists W E, filter p (g_lon g) = W ++ E
    /\ strictly_increasing W /\ strictly_increasing E
    /\ (forall x, In x W -> In x (g_lon g)) /\ (forall x, In x E -> In x (g_lon g))
    /\ (forall x y, In x W -> In y E -> y < x)).
  { intros p. exists [], (filter p (g_lon g)). repeat split; auto using si_nil, si_filter.
    - intros x [].
    - intros x Hx. now apply filter_In in Hx.
    - intros x y []. }
  destruct lo as [l|], hi as [h|].
  - destruct (Rlt_dec h l) as [Hlt|Hge].
    + rewrite lon_range_wrap, take_app, !take_pick by auto.
      exists (filter (fun x => Rleb l x) (g_lon g)), (filter (fun x => Rleb x h) (g_lon g)).
      repeat split; auto using si_filter.
      * intros x Hx. now apply filter_In in Hx.
      * intros x Hx. now apply filter_In in Hx.
      * intros x y Hx Hy. apply filter_In in Hx. apply filter_In in Hy.
        destruct Hx as [_ Hx], Hy as [_ Hy]. apply Rleb_true in Hx. apply Rleb_true in Hy. lra.
    + unfold lon_range. replace (Rltb h l) with false by (symmetry; apply Rltb_false; lra).
      rewrite take_pick. apply G.
  - unfold lon_range. rewrite take_pick. apply G.
  - unfold lon_range. rewrite take_pick. apply G.
  - unfold lon_range. rewrite <- lon_length, take_seq.
    exists [], (g_lon g). repeat split; auto using si_nil; [intros x []|intros x y []].
Qed.

(** ** lon_mono (C49) *)
Lemma vdiff_length l : length (vdiff l) = (length l - 1)%nat.
Proof. unfold vdiff. rewrite map_length. apply pairs_length. Qed.
Lemma vdiff_nth l i : (S i < length l)%nat -> nth i (vdiff l) 0 = nth (S i) l 0 - nth i l 0.
Proof.
  intros H. unfold vdiff. rewrite (nth_map_lt _ _ _ (0, 0)) by (rewrite pairs_length; lia).
  now rewrite pairs_nth.
Qed.

Lemma filter_seq_single (p : nat -> bool) m j : (j < m)%nat -> p j = true ->
  (forall i, (i < m)%nat -> i <> j -> p i = false) -> filter p (seq 0 m) = [j].
Proof.
  intros Hj Hp Hn. replace m with (j + S (m - S j))%nat by lia.
  rewrite seq_app, filter_app. cbn [seq filter Nat.add]. rewrite Hp.
  rewrite !filter_false; auto.
  - intros i Hi. apply in_seq in Hi. apply Hn; lia.
  - intros i Hi. apply in_seq in Hi. apply Hn; lia.
Qed.

Lemma lon_mono_of_split W E l : l = W ++ E ->
  strictly_increasing W -> strictly_increasing E -> (forall x y, In x W -> In y E -> y < x) ->
  match filter (fun i => Rltb (nth i (vdiff l) 0) 0) (seq 0 (length (vdiff l))) with
  | [] => Ok l
  | [j] => Ok (map (fun x => x - 360) (firstn (S j) l) ++ skipn (S j) l)
  | _ => Err AssertionError
  end = Ok (match E with [] => W | _ => map (fun x => x - 360) W ++ E end).
Proof.
  intros -> HW HE HWE.
  assert (Hmono : forall l, strictly_increasing l ->
     filter (fun i => Rltb (nth i (vdiff l) 0) 0) (seq 0 (length (vdiff l))) = []).
  { intros l Hl. apply filter_false. intros i Hi. apply in_seq in Hi. rewrite vdiff_length in Hi.
    apply Rltb_false. rewrite vdiff_nth by lia. assert (nth i l 0 < nth (S i) l 0) by (apply Hl; lia). lra. }
  destruct E as [|e E].
  { rewrite app_nil_r. now rewrite Hmono. }
  destruct W as [|w W].
  { simpl app. now rewrite Hmono. }
  set (Wl := w :: W) in *. set (El := e :: E) in *.
  assert (LW : length Wl = S (length W)) by reflexivity.
  assert (LE : length El = S (length E)) by reflexivity.
  rewrite (filter_seq_single _ _ (length W)).
  - rewrite <- LW. rewrite firstn_app, skipn_app, Nat.sub_diag, skipn_all, firstn_all.
    simpl firstn. rewrite app_nil_r. reflexivity.
  - rewrite vdiff_length, app_length. lia.
  - rewrite vdiff_nth by (rewrite app_length; lia). apply Rltb_true.
    rewrite (app_nth2 _ _ 0 (n := S (length W))) by lia.
    rewrite LW, Nat.sub_diag. rewrite (app_nth1 _ _ 0 (n := length W)) by lia.
    assert (nth 0 El 0 < nth (length W) Wl 0); [|lra].
    apply HWE; apply nth_In; lia.
  - intros i Hi Hne. rewrite vdiff_length, app_length in Hi. apply Rltb_false.
    rewrite vdiff_nth by (rewrite app_length; lia).
    destruct (Nat.lt_ge_cases i (length W)) as [H|H].
    + rewrite !app_nth1 by lia. assert (nth i Wl 0 < nth (S i) Wl 0) by (apply HW; lia). lra.
    + rewrite !app_nth2 by lia.
      assert (nth (i - length Wl) El 0 < nth (S i - length Wl) El 0) by (apply HE; lia). lra.
Qed.

(** ** what the indexer produces *)
Record region_facts (g : grid) (rg : region) : Prop := {
  rf_grid : rg_grid rg = g;
  rf_lat_nodup : NoDup (rg_lat_idx rg);
  rf_lat_lt : forall i, In i (rg_lat_idx rg) -> (i < g_nlat g)%nat;
  rf_lon_nodup : NoDup (rg_lon_idx rg);
  rf_lon_lt : forall i, In i (rg_lon_idx rg) -> (i < g_nlon g)%nat;
  rf_lat_decr : strictly_decreasing (region_lat rg);
  rf_lon_split : exists W E, region_lon rg = W ++ E
    /\ strictly_increasing W /\ strictly_increasing E
    /\ (forall x, In x W -> In x (g_lon g)) /\ (forall x, In x E -> In x (g_lon g))
    /\ (forall x y, In x W -> In y E -> y < x)
}.

Lemma pick_single_inv coord x l : pick_single coord x = Ok l ->
  l = pick coord (fun c => isclose c x) /\ length l = 1%nat.
Proof.
  unfold pick_single. destruct (Nat.eqb_spec (length (pick coord (fun c => isclose c x))) 1); [|discriminate].
  intros H; injection H as <-. auto.
Qed.

Lemma lat_idx_facts g s l : (1 < g_nlat g)%nat -> get_lat_indices g s = Ok l ->
  NoDup l /\ (forall i, In i l -> (i < g_nlat g)%nat) /\ strictly_decreasing (take_idx 0 (g_lat g) l).
Proof.
  intros Hn.
  assert (Hp : forall p, NoDup (pick (g_lat g) p)
      /\ (forall i, In i (pick (g_lat g) p) -> (i < g_nlat g)%nat)
      /\ strictly_decreasing (take_idx 0 (g_lat g) (pick (g_lat g) p))).
  { intros p. split; [apply pick_NoDup|]. split.
    - intros i Hi. apply pick_lt in Hi. now rewrite lat_length in Hi.
    - rewrite take_pick. now apply sd_filter, lat_decreasing. }
  assert (Hr : forall lo hi, NoDup (lat_range g lo hi)
      /\ (forall i, In i (lat_range g lo hi) -> (i < g_nlat g)%nat)
      /\ strictly_decreasing (take_idx 0 (g_lat g) (lat_range g lo hi))).
  { intros lo hi. unfold lat_range. destruct lo, hi; try apply Hp.
    split; [apply seq_NoDup|]. split; [intros i Hi; apply in_seq in Hi; lia|].
    rewrite <- lat_length, take_seq. now apply lat_decreasing. }
  destruct s as [x|t|a b st|]; unfold get_lat_indices; intros H; try discriminate.
  - apply pick_single_inv in H. destruct H as [-> _]. apply Hp.
  - destruct (String.eqb t "N"); [apply Ok_inj in H; subst l; apply Hr|].
    destruct (String.eqb t "S"); [apply Ok_inj in H; subst l; apply Hr|discriminate].
  - destruct (check_slice a b st) as [p|]; simpl in H; [|discriminate]. apply Ok_inj in H; subst l. apply Hr.
Qed.

Lemma NoDup_app_intro {A} (a b : list A) : NoDup a -> NoDup b ->
  (forall x, In x a -> ~ In x b) -> NoDup (a ++ b).
Proof.
  induction a as [|x a IH]; intros Ha Hb Hab; [auto|]. simpl. inversion Ha; subst. constructor.
  - rewrite in_app_iff. intros [H|H]; [auto|]. apply (Hab x); simpl; auto.
  - apply IH; auto. intros y Hy. apply Hab. simpl; auto.
Qed.

Lemma lon_idx_facts g s l : (0 < g_nlon g)%nat -> get_lon_indices g s = Ok l ->
  NoDup l /\ (forall i, In i l -> (i < g_nlon g)%nat)
  /\ exists W E, take_idx 0 (g_lon g) l = W ++ E
    /\ strictly_increasing W /\ strictly_increasing E
    /\ (forall x, In x W -> In x (g_lon g)) /\ (forall x, In x E -> In x (g_lon g))
    /\ (forall x y, In x W -> In y E -> y < x).
Proof.
  intros Hn.
  assert (Hp : forall p, NoDup (pick (g_lon g) p)
      /\ (forall i, In i (pick (g_lon g) p) -> (i < g_nlon g)%nat)).
  { intros p. split; [apply pick_NoDup|].
    intros i Hi. apply pick_lt in Hi. now rewrite lon_length in Hi. }
  assert (Hr : forall lo hi, NoDup (lon_range g lo hi)
      /\ (forall i, In i (lon_range g lo hi) -> (i < g_nlon g)%nat)).
  { intros lo hi. destruct lo as [a|], hi as [b|]; try apply Hp.
    - destruct (Rlt_dec b a) as [Hlt|Hge].
      + rewrite lon_range_wrap by auto. split.
        * apply NoDup_app_intro; try apply Hp. intros i Hi Hi'.
          unfold pick in Hi, Hi'. apply filter_In in Hi. apply filter_In in Hi'.
          destruct Hi as [_ Hi], Hi' as [_ Hi']. apply Rleb_true in Hi. apply Rleb_true in Hi'. lra.
        * intros i Hi. apply in_app_or in Hi. destruct Hi as [Hi|Hi]; now apply Hp in Hi.
      + unfold lon_range. replace (Rltb b a) with false by (symmetry; apply Rltb_false; lra). apply Hp.
    - split; [apply seq_NoDup|]. intros i Hi; apply in_seq in Hi; lia. }
  destruct s as [x|t|a b st|]; unfold get_lon_indices; intros H; try discriminate.
  - apply pick_single_inv in H. destruct H as [-> _]. split; [apply Hp|]. split; [apply Hp|].
    exists [], (take_idx 0 (g_lon g) (pick (g_lon g) (fun c => isclose c x))).
    split; [reflexivity|]. rewrite take_pick. split; [exact si_nil|].
    split; [now apply si_filter, lon_increasing|]. split; [intros y []|].
    split; [|intros u v []]. intros y Hy. now apply filter_In in Hy.
  - destruct (check_slice a b st) as [p|]; simpl in H; [|discriminate]. apply Ok_inj in H; subst l.
    split; [apply Hr|]. split; [apply Hr|]. now apply lon_range_shape.
Qed.

Lemma region_getitem_inv g arg rg : region_getitem g arg = Ok rg ->
  exists slon slat lon_idx lat_idx,
    (arg = IdxTuple [slon; slat] \/ (arg = IdxOne slon /\ slat = SelSlice BNone BNone false))
    /\ get_lon_indices g slon = Ok lon_idx /\ get_lat_indices g slat = Ok lat_idx
    /\ rg = {| rg_grid := g; rg_lat_idx := lat_idx; rg_lon_idx := lon_idx |}.
Proof.
  unfold region_getitem. intros H.
  assert (G : forall slon slat,
     (do lon_idx <- get_lon_indices g slon; do lat_idx <- get_lat_indices g slat;
      mk_region g lat_idx lon_idx) = Ok rg ->
     exists lon_idx lat_idx, get_lon_indices g slon = Ok lon_idx /\ get_lat_indices g slat = Ok lat_idx
       /\ rg = {| rg_grid := g; rg_lat_idx := lat_idx; rg_lon_idx := lon_idx |}).
  { intros slon slat E. destruct (get_lon_indices g slon) as [a|]; simpl in E; [|discriminate].
    destruct (get_lat_indices g slat) as [b|]; simpl in E; [|discriminate].
    unfold mk_region, passert in E. destruct (Nat.leb _ _); [|discriminate].
    destruct (Nat.leb _ _); [|discriminate]. injection E as <-. eauto. }
  destruct arg as [s|l].
  - apply G in H. destruct H as [a [b [H1 [H2 H3]]]]. exists s, (SelSlice BNone BNone false), a, b. auto.
  - destruct l as [|slon [|slat [|? ?]]]; try discriminate.
    apply G in H. destruct H as [a [b [H1 [H2 H3]]]]. exists slon, slat, a, b. auto.
Qed.

Lemma region_facts_of g arg rg : (1 < g_nlat g)%nat -> (0 < g_nlon g)%nat ->
  region_getitem g arg = Ok rg -> region_facts g rg.
Proof.
  intros H1 H2 H. apply region_getitem_inv in H.
  destruct H as [slon [slat [lo [la [_ [Hlo [Hla ->]]]]]]].
  apply lon_idx_facts in Hlo; auto. apply lat_idx_facts in Hla; auto.
  destruct Hlo as [A1 [A2 A3]]. destruct Hla as [B1 [B2 B3]].
  constructor; simpl; auto.
Qed.

Lemma NoDup_bounded_length (l : list nat) n : NoDup l -> (forall i, In i l -> (i < n)%nat) -> (length l <= n)%nat.
Proof.
  intros H1 H2. rewrite <- (seq_length n 0). apply NoDup_incl_length; auto.
  intros i Hi. apply in_seq. apply H2 in Hi. lia.
Qed.

(** the assertions in GridRegion.__init__ never fail for indexer results *)
Lemma region_getitem_tuple g slon slat : (1 < g_nlat g)%nat -> (0 < g_nlon g)%nat ->
  region_getitem g (IdxTuple [slon; slat]) =
  (do lo <- get_lon_indices g slon; do la <- get_lat_indices g slat;
   Ok {| rg_grid := g; rg_lat_idx := la; rg_lon_idx := lo |}).
Proof.
  intros H1 H2. unfold region_getitem.
  destruct (get_lon_indices g slon) as [lo|] eqn:E1; [|reflexivity].
  destruct (get_lat_indices g slat) as [la|] eqn:E2; [|reflexivity]. simpl.
  apply lon_idx_facts in E1; auto. apply lat_idx_facts in E2; auto.
  unfold mk_region, passert.
  replace (length la <=? g_nlat g)%nat with true.
  2:{ symmetry. apply Nat.leb_le. apply NoDup_bounded_length; tauto. }
  replace (length lo <=? g_nlon g)%nat with true; auto.
  symmetry. apply Nat.leb_le. apply NoDup_bounded_length; tauto.
Qed.

Lemma lon_mono_facts g rg : region_facts g rg ->
  exists m, region_lon_mono rg = Ok m /\ strictly_increasing m
    /\ length m = length (region_lon rg)
    /\ (forall i, (i < length m)%nat ->
          nth i m 0 = nth i (region_lon rg) 0 \/ nth i m 0 = nth i (region_lon rg) 0 - 360)
    /\ (forall x y, In x m -> In y m -> y - x < 360)
    /\ (strictly_increasing (region_lon rg) -> m = region_lon rg).
Proof.
  intros F. destruct (rf_lon_split _ _ F) as [W [E [HWE [HW [HE [IW [IE Hlt]]]]]]].
  unfold region_lon_mono. rewrite (lon_mono_of_split W E) by auto.
  assert (BW : forall x, In x W -> 0 <= x < 360) by (intros x Hx; apply (lon_bounds g); auto).
  assert (BE : forall x, In x E -> 0 <= x < 360) by (intros x Hx; apply (lon_bounds g); auto).
  eexists. split; [reflexivity|]. rewrite HWE.
  destruct E as [|e E].
  - rewrite app_nil_r. split; [auto|]. split; [auto|]. split; [auto|]. split; [|auto].
    intros x y Hx Hy. apply BW in Hx. apply BW in Hy. lra.
  - set (El := e :: E) in *.
    split; [|split; [|split; [|split]]].
    + apply si_app; auto using si_map_sub. intros x y Hx Hy. apply in_map_iff in Hx.
      destruct Hx as [z [<- Hz]]. apply BW in Hz. apply BE in Hy. lra.
    + rewrite !app_length, map_length. reflexivity.
    + intros i Hi. destruct (Nat.lt_ge_cases i (length W)) as [H|H].
      * right. rewrite !app_nth1 by (try rewrite map_length; lia).
        now rewrite (nth_map_lt _ _ _ 0).
      * left. rewrite !app_nth2 by (try rewrite map_length; lia). now rewrite map_length.
    + intros x y Hx Hy. apply in_app_or in Hx. apply in_app_or in Hy.
      assert (Bm : forall z, In z (map (fun x => x - 360) W) -> exists w, In w W /\ z = w - 360).
      { intros z Hz. apply in_map_iff in Hz. destruct Hz as [w [<- Hw]]. eauto. }
      destruct Hx as [Hx|Hx], Hy as [Hy|Hy].
      * apply Bm in Hx. apply Bm in Hy. destruct Hx as [w [Hw ->]], Hy as [v [Hv ->]].
        apply BW in Hw. apply BW in Hv. lra.
      * apply Bm in Hx. destruct Hx as [w [Hw ->]]. specialize (Hlt _ _ Hw Hy). lra.
      * apply Bm in Hy. destruct Hy as [w [Hw ->]]. apply BW in Hw. apply BE in Hx. lra.
      * apply BE in Hx. apply BE in Hy. lra.
    + intros Hs. destruct W as [|w W]; [reflexivity|]. exfalso.
      assert (e < w) by (apply Hlt; simpl; auto).
      assert (w < e).
      { replace w with (nth 0 ((w :: W) ++ El) 0) by reflexivity.
        replace e with (nth (length (w :: W)) ((w :: W) ++ El) 0).
        - apply Hs; [simpl; lia|]. rewrite app_length. simpl. lia.
        - rewrite app_nth2 by lia. now rewrite Nat.sub_diag. }
      lra.
Qed.

(** ** extract and mask (C50) *)
Lemma take_idx_length {A} (d : A) v idx : length (take_idx d v idx) = length idx.
Proof. apply map_length. Qed.
Lemma take_idx_nth {A} (d d' : A) v idx k : (k < length idx)%nat ->
  nth k (take_idx d v idx) d' = nth (nth k idx 0%nat) v d.
Proof. intros H. unfold take_idx. now rewrite (nth_map_lt _ _ _ 0%nat). Qed.

Definition extract2 (rg : region) (m : mat) : mat :=
  map (fun r => take_idx 0 r (rg_lon_idx rg)) (take_idx [] m (rg_lat_idx rg)).

Lemma extract2_shaped rg m :
  shaped (length (rg_lat_idx rg)) (length (rg_lon_idx rg)) (extract2 rg m).
Proof.
  split; [unfold extract2; now rewrite map_length, take_idx_length|].
  unfold extract2. rewrite Forall_map. apply Forall_forall. intros r _. apply take_idx_length.
Qed.
Lemma extract2_get rg m i j : (i < length (rg_lat_idx rg))%nat -> (j < length (rg_lon_idx rg))%nat ->
  mget (extract2 rg m) i j = mget m (nth i (rg_lat_idx rg) 0%nat) (nth j (rg_lon_idx rg) 0%nat).
Proof.
  intros Hi Hj. unfold mget, extract2.
  rewrite (nth_map_lt _ _ _ []) by now rewrite take_idx_length.
  rewrite take_idx_nth by auto. now rewrite take_idx_nth.
Qed.

Lemma sd_inj l i j : strictly_decreasing l -> (i < length l)%nat -> (j < length l)%nat ->
  nth i l 0 = nth j l 0 -> i = j.
Proof.
  intros H Hi Hj E. destruct (lt_eq_lt_dec i j) as [[Hl|]|Hl]; auto.
  - specialize (H i j Hl Hj). lra.
  - specialize (H j i Hl Hi). lra.
Qed.
Lemma si_inj l i j : strictly_increasing l -> (i < length l)%nat -> (j < length l)%nat ->
  nth i l 0 = nth j l 0 -> i = j.
Proof.
  intros H Hi Hj E. destruct (lt_eq_lt_dec i j) as [[Hl|]|Hl]; auto.
  - specialize (H i j Hl Hj). lra.
  - specialize (H j i Hl Hi). lra.
Qed.

Section RegionTheory.
Variables (res rs om : R) (nt : option Z) (g : grid).
Hypothesis Hg : mk_grid res rs om nt = Ok g.
Let F := mk_grid_facts _ _ _ _ _ Hg.
Lemma nlat_gt1 : (1 < g_nlat g)%nat.
Proof. pose proof (gf_nlat3 _ _ _ _ F). lia. Qed.
Lemma nlon_gt0 : (0 < g_nlon g)%nat.
Proof. pose proof (gf_nlon4 _ _ _ _ F). lia. Qed.

Variables (arg : index_arg) (rg : region).
Hypothesis Hrg : region_getitem g arg = Ok rg.
Let RF := region_facts_of g arg rg nlat_gt1 nlon_gt0 Hrg.

Lemma lat_idx_nth i : (i < length (rg_lat_idx rg))%nat -> (nth i (rg_lat_idx rg) 0 < g_nlat g)%nat.
Proof. intros H. apply (rf_lat_lt _ _ RF), nth_In, H. Qed.
Lemma lon_idx_nth i : (i < length (rg_lon_idx rg))%nat -> (nth i (rg_lon_idx rg) 0 < g_nlon g)%nat.
Proof. intros H. apply (rf_lon_lt _ _ RF), nth_In, H. Qed.

Lemma region_lat_nth i : (i < length (rg_lat_idx rg))%nat ->
  nth i (region_lat rg) 0 = nth (nth i (rg_lat_idx rg) 0%nat) (g_lat g) 0.
Proof. intros H. unfold region_lat. rewrite (rf_grid _ _ RF). now apply take_idx_nth. Qed.
Lemma region_lon_nth i : (i < length (rg_lon_idx rg))%nat ->
  nth i (region_lon rg) 0 = nth (nth i (rg_lon_idx rg) 0%nat) (g_lon g) 0.
Proof. intros H. unfold region_lon. rewrite (rf_grid _ _ RF). now apply take_idx_nth. Qed.

Lemma extract_2d_lemma m : shaped (g_nlat g) (g_nlon g) m ->
  exists m', extract rg [A2 m] = Ok (ExOne (A2 m'))
    /\ shaped (fst (region_shape rg)) (snd (region_shape rg)) m'
    /\ length (region_lat rg) = fst (region_shape rg) /\ length (region_lon rg) = snd (region_shape rg)
    /\ forall i j i' j', (i < fst (region_shape rg))%nat -> (j < snd (region_shape rg))%nat ->
         (i' < g_nlat g)%nat -> (j' < g_nlon g)%nat ->
         nth i' (g_lat g) 0 = nth i (region_lat rg) 0 -> nth j' (g_lon g) 0 = nth j (region_lon rg) 0 ->
         mget m' i j = mget m i' j'.
Proof.
  intros Hm. exists (extract2 rg m). unfold extract, extract_one. simpl bind.
  rewrite (rf_grid _ _ RF).
  replace (shapedb (g_nlat g) (g_nlon g) m) with true by (symmetry; now apply shapedb_spec).
  split; [reflexivity|]. split; [apply extract2_shaped|].
  split; [apply take_idx_length|]. split; [apply take_idx_length|].
  intros i j i' j' Hi Hj Hi' Hj' El Eo. simpl in Hi, Hj.
  rewrite extract2_get by auto. rewrite region_lat_nth in El by auto. rewrite region_lon_nth in Eo by auto.
  apply sd_inj in El; [|apply lat_decreasing, nlat_gt1|rewrite lat_length; auto|rewrite lat_length; now apply lat_idx_nth].
  apply si_inj in Eo; [|apply lon_increasing, nlon_gt0|rewrite lon_length; auto|rewrite lon_length; now apply lon_idx_nth].
  now subst.
Qed.

Lemma extract_lat_profile v : length v = g_nlat g ->
  exists v', extract rg [A1 v] = Ok (ExOne (A1 v')) /\ length v' = fst (region_shape rg)
    /\ forall i i', (i < length v')%nat -> (i' < g_nlat g)%nat ->
         nth i' (g_lat g) 0 = nth i (region_lat rg) 0 -> nth i v' 0 = nth i' v 0.
Proof.
  intros Hv. unfold extract, extract_one. simpl bind. rewrite (rf_grid _ _ RF), Hv, Nat.eqb_refl.
  eexists. split; [reflexivity|]. split; [apply take_idx_length|].
  intros i i' Hi Hi' E. rewrite take_idx_length in Hi. rewrite region_lat_nth in E by auto.
  rewrite take_idx_nth by auto.
  apply sd_inj in E; [|apply lat_decreasing, nlat_gt1|rewrite lat_length; auto|rewrite lat_length; now apply lat_idx_nth].
  now subst.
Qed.

Lemma extract_lon_profile v : length v = g_nlon g ->
  exists v', extract rg [A1 v] = Ok (ExOne (A1 v')) /\ length v' = snd (region_shape rg)
    /\ forall j j', (j < length v')%nat -> (j' < g_nlon g)%nat ->
         nth j' (g_lon g) 0 = nth j (region_lon rg) 0 -> nth j v' 0 = nth j' v 0.
Proof.
  intros Hv. unfold extract, extract_one. simpl bind. rewrite (rf_grid _ _ RF), Hv, Nat.eqb_refl.
  pose proof (nlat_lt_nlon _ _ _ _ _ Hg).
  destruct (Nat.eqb_spec (g_nlon g) (g_nlat g)); [lia|].
  eexists. split; [reflexivity|]. split; [apply take_idx_length|].
  intros i i' Hi Hi' E. rewrite take_idx_length in Hi. rewrite region_lon_nth in E by auto.
  rewrite take_idx_nth by auto.
  apply si_inj in E; [|apply lon_increasing, nlon_gt0|rewrite lon_length; auto|rewrite lon_length; now apply lon_idx_nth].
  now subst.
Qed.

Lemma extract_error f :
  match f with
  | A1 v => length v <> g_nlat g /\ length v <> g_nlon g
  | A2 m => ~ shaped (g_nlat g) (g_nlon g) m
  | AOther => True
  end -> extract rg [f] = Err ValueError.
Proof.
  unfold extract, extract_one. rewrite (rf_grid _ _ RF). destruct f as [v|m|]; intros H; simpl bind; auto.
  - destruct H as [H1 H2]. apply Nat.eqb_neq in H1. apply Nat.eqb_neq in H2. now rewrite H1, H2.
  - replace (shapedb (g_nlat g) (g_nlon g) m) with false; auto. symmetry. apply not_true_is_false.
    now rewrite shapedb_spec.
Qed.

Lemma In_take_lat i : (i < g_nlat g)%nat ->
  (In (nth i (g_lat g) 0) (region_lat rg) <-> In i (rg_lat_idx rg)).
Proof.
  intros Hi. unfold region_lat, take_idx. rewrite (rf_grid _ _ RF), in_map_iff. split.
  - intros [k [E Hk]]. apply sd_inj in E; [now subst| apply lat_decreasing, nlat_gt1| |].
    + rewrite lat_length. now apply (rf_lat_lt _ _ RF).
    + now rewrite lat_length.
  - intros H. eauto.
Qed.
Lemma In_take_lon i : (i < g_nlon g)%nat ->
  (In (nth i (g_lon g) 0) (region_lon rg) <-> In i (rg_lon_idx rg)).
Proof.
  intros Hi. unfold region_lon, take_idx. rewrite (rf_grid _ _ RF), in_map_iff. split.
  - intros [k [E Hk]]. apply si_inj in E; [now subst| apply lon_increasing, nlon_gt0| |].
    + rewrite lon_length. now apply (rf_lon_lt _ _ RF).
    + now rewrite lon_length.
  - intros H. eauto.
Qed.

Lemma existsb_In l i : existsb (Nat.eqb i) l = true <-> In i l.
Proof.
  rewrite existsb_exists. split.
  - intros [k [Hk E]]. apply Nat.eqb_eq in E. now subst.
  - intros H. exists i. split; auto. apply Nat.eqb_refl.
Qed.

Lemma mask_spec i j : (i < g_nlat g)%nat -> (j < g_nlon g)%nat ->
  (nth j (nth i (region_mask rg) []) false = true
   <-> In (nth i (g_lat g) 0) (region_lat rg) /\ In (nth j (g_lon g) 0) (region_lon rg)).
Proof.
  intros Hi Hj. unfold region_mask. rewrite (rf_grid _ _ RF), !tab_nth by auto.
  rewrite andb_true_iff, !existsb_In, In_take_lat, In_take_lon by auto. tauto.
Qed.
Lemma mask_shaped : shaped (g_nlat g) (g_nlon g) (region_mask rg).
Proof.
  unfold region_mask. rewrite (rf_grid _ _ RF). split; [apply tab_length|].
  apply Forall_forall. intros r Hr. apply tab_in in Hr. destruct Hr as [i [_ ->]]. apply tab_length.
Qed.

Lemma count_mem (l : list nat) n : NoDup l -> (forall i, In i l -> (i < n)%nat) ->
  length (filter (fun i => existsb (Nat.eqb i) l) (seq 0 n)) = length l.
Proof.
  intros H1 H2. apply Nat.le_antisymm; apply NoDup_incl_length.
  - apply NoDup_filter, seq_NoDup.
  - intros i Hi. apply filter_In in Hi. now apply existsb_In.
  - auto.
  - intros i Hi. apply filter_In. split; [apply in_seq; apply H2 in Hi; lia|]. now apply existsb_In.
Qed.

Lemma filter_map_length {A} (f : A -> bool) l :
  length (filter (fun b => b) (map f l)) = length (filter f l).
Proof. induction l as [|x l IH]; simpl; [auto|]. destruct (f x); simpl; auto. Qed.

Lemma list_sum_filter {A} (p : A -> bool) c l :
  list_sum (map (fun x => if p x then c else 0%nat) l) = (length (filter p l) * c)%nat.
Proof. induction l as [|x l IH]; simpl; [auto|]. rewrite IH. destruct (p x); simpl; lia. Qed.

Lemma mask_count : count_true (region_mask rg) = (fst (region_shape rg) * snd (region_shape rg))%nat.
Proof.
  unfold count_true, region_mask, tab. rewrite (rf_grid _ _ RF), map_map.
  rewrite (map_ext _ (fun i => if existsb (Nat.eqb i) (rg_lat_idx rg) then length (rg_lon_idx rg) else 0%nat)).
  - rewrite list_sum_filter, count_mem; [reflexivity|exact (rf_lat_nodup _ _ RF)|exact (rf_lat_lt _ _ RF)].
  - intros i. rewrite filter_map_length. destruct (existsb (Nat.eqb i) (rg_lat_idx rg)); simpl.
    + apply count_mem; [exact (rf_lon_nodup _ _ RF)|exact (rf_lon_lt _ _ RF)].
    + now rewrite filter_false.
Qed.
End RegionTheory.

Lemma extract_many rg f1 f2 fs out : extract rg (f1 :: f2 :: fs) = Ok out <->
  exists l, out = ExTuple l /\ Forall2 (fun f a => extract rg [f] = Ok (ExOne a)) (f1 :: f2 :: fs) l.
Proof.
  assert (G : forall fs l, res_map (extract_one rg) fs = Ok l <->
     Forall2 (fun f a => extract rg [f] = Ok (ExOne a)) fs l).
  { induction fs0 as [|f fs0 IH]; intros l; simpl.
    - split; [intros H; injection H as <-; constructor|intros H; now inversion H].
    - split.
      + destruct (extract_one rg f) as [a|] eqn:Ef; simpl; [|discriminate].
        destruct (res_map (extract_one rg) fs0) as [bs|]; simpl; [|discriminate].
        intros H; injection H as <-. constructor; [simpl; now rewrite Ef|]. now apply IH.
      + intros H. inversion H as [|? a ? l' Ha Hl]; subst. simpl in Ha.
        destruct (extract_one rg f) as [a'|]; simpl in Ha; [|discriminate]. injection Ha as ->. simpl.
        apply IH in Hl. now rewrite Hl. }
  change (extract rg (f1 :: f2 :: fs)) with (do l <- res_map (extract_one rg) (f1 :: f2 :: fs); Ok (ExTuple l)).
  split.
  - destruct (res_map (extract_one rg) (f1 :: f2 :: fs)) as [l|] eqn:E; [|discriminate].
    intros H. apply Ok_inj in H. exists l. split; auto. now apply G.
  - intros [l [-> H]]. apply G in H. now rewrite H.
Qed.

(** ** Grid.mean (C07, C08) *)
Lemma sum_over_Rsum {A} (I : list A) f : sum_over I f = Rsum (map f I).
Proof. induction I as [|i I IH]; simpl; [reflexivity|]. now rewrite IH. Qed.
Lemma sum_over_ext {A} (I : list A) f f' : (forall i, In i I -> f i = f' i) -> sum_over I f = sum_over I f'.
Proof. intros H. rewrite !sum_over_Rsum. now apply Rsum_map_ext_in. Qed.
Lemma sum_over_plus {A} (I : list A) f f' : sum_over I (fun i => f i + f' i) = sum_over I f + sum_over I f'.
Proof. rewrite !sum_over_Rsum. apply Rsum_map_plus. Qed.
Lemma sum_over_scal {A} (I : list A) c f : sum_over I (fun i => c * f i) = c * sum_over I f.
Proof. rewrite !sum_over_Rsum. apply Rsum_map_scal. Qed.
Lemma sum_over_const {A} (I : list A) c : sum_over I (fun _ => c) = INR (length I) * c.
Proof. rewrite sum_over_Rsum. apply Rsum_const. Qed.
Lemma sum_over_le {A} (I : list A) f f' : (forall i, In i I -> f i <= f' i) -> sum_over I f <= sum_over I f'.
Proof. intros H. rewrite !sum_over_Rsum. now apply Rsum_le. Qed.
Lemma sum_over_pos {A} (I : list A) f : I <> [] -> (forall i, In i I -> 0 < f i) -> 0 < sum_over I f.
Proof.
  intros Hne H. rewrite sum_over_Rsum. apply Rsum_pos; [destruct I; easy|].
  apply Forall_map, Forall_forall. exact H.
Qed.

Lemma length_pos_INR {A} (l : list A) : l <> [] -> 0 < INR (length l).
Proof. intros H. apply lt_0_INR. destruct l; [easy|simpl; lia]. Qed.

Definition submat (f : nat -> nat -> R) (I J : list nat) : mat := map (fun i => map (f i) J) I.
Lemma mean_core_forms f I J w : I <> [] -> J <> [] ->
  mean_core (submat f I J) (length J) (map w I) AxNone
    = Ok (MScalar (sum_over I (fun i => sum_over J (fun j => w i * f i j)) / sum_over I w / INR (length J)))
  /\ (forall ax, is_meridional_axis ax = true -> mean_core (submat f I J) (length J) (map w I) ax
        = Ok (MProfile (map (fun j => sum_over I (fun i => w i * f i j) / sum_over I w) J)))
  /\ (forall ax, is_zonal_axis ax = true -> mean_core (submat f I J) (length J) (map w I) ax
        = Ok (MProfile (map (fun i => sum_over J (f i) / INR (length J)) I))).
Proof.
  intros HI HJ.
  assert (LI : Nat.eqb (length I) 0 = false) by (destruct I; [easy|reflexivity]).
  assert (LJ : Nat.eqb (length J) 0 = false) by (destruct J; [easy|reflexivity]).
  assert (LS : length (submat f I J) = length I) by apply map_length.
  unfold mean_core. rewrite LS, LI, LJ. simpl orb. simpl andb.
  split; [|split].
  - do 4 f_equal.
    + unfold msum, submat. rewrite map2_map_l, map2_map_r, map2_diag, map_map, sum_over_Rsum.
      apply Rsum_map_ext_in. intros i _. rewrite sum_over_Rsum. unfold vscale. now rewrite map_map.
    + now rewrite sum_over_Rsum.
  - intros ax Hax. destruct ax; try discriminate; rewrite Hax.
    + do 2 f_equal. apply (list_eq_nth 0); [now rewrite tab_length, map_length|].
      rewrite tab_length. intros j Hj. rewrite tab_nth by auto. rewrite (nth_map_lt _ _ _ 0%nat) by auto.
      f_equal; [|now rewrite sum_over_Rsum]. unfold submat.
      rewrite map2_map_l, map2_map_r, map2_diag, sum_over_Rsum. apply Rsum_map_ext_in.
      intros i _. rewrite (nth_map_lt _ _ _ 0%nat) by auto. ring.
    + do 2 f_equal. apply (list_eq_nth 0); [now rewrite tab_length, map_length|].
      rewrite tab_length. intros j Hj. rewrite tab_nth by auto. rewrite (nth_map_lt _ _ _ 0%nat) by auto.
      f_equal; [|now rewrite sum_over_Rsum]. unfold submat.
      rewrite map2_map_l, map2_map_r, map2_diag, sum_over_Rsum. apply Rsum_map_ext_in.
      intros i _. rewrite (nth_map_lt _ _ _ 0%nat) by auto. ring.
  - intros ax Hax.
    assert (Hm : is_meridional_axis ax = false).
    { destruct ax as [|x|s|]; simpl in *; auto.
      - apply orb_true_iff in Hax. apply orb_false_iff. rewrite !Reqb_false.
        rewrite !Reqb_true in Hax. destruct Hax; subst; split; lra.
      - apply String.eqb_eq in Hax. now subst. }
    destruct ax; try discriminate; rewrite Hm, Hax; do 2 f_equal; unfold submat; rewrite map_map;
      apply map_ext; intros i; unfold vmean; now rewrite map_length, sum_over_Rsum.
Qed.

Section Mean.
Variables (res rs om : R) (nt : option Z) (g : grid).
Hypothesis Hg : mk_grid res rs om nt = Ok g.
Let F := mk_grid_facts _ _ _ _ _ Hg.
Let area i := nth i (gridpoint_area g) 0.

Lemma submat_all m : shaped (g_nlat g) (g_nlon g) m ->
  submat (mget m) (seq 0 (g_nlat g)) (seq 0 (g_nlon g)) = m.
Proof. intros H. symmetry. exact (mat_of_mget _ _ _ H). Qed.

Lemma extract2_submat arg rg m : region_getitem g arg = Ok rg -> shaped (g_nlat g) (g_nlon g) m ->
  extract2 rg m = submat (mget m) (rg_lat_idx rg) (rg_lon_idx rg).
Proof. intros _ _. unfold extract2, submat, take_idx. now rewrite map_map. Qed.

Lemma grid_mean_core rg m ax : valid_region g rg -> shaped (g_nlat g) (g_nlon g) m ->
  grid_mean g (A2 m) ax rg
  = mean_core (submat (mget m) (sel_rows g rg) (sel_cols g rg)) (length (sel_cols g rg))
      (map area (sel_rows g rg)) ax.
Proof.
  intros Hv Hm. assert (Hb : shapedb (g_nlat g) (g_nlon g) m = true) by now apply shapedb_spec.
  destruct rg as [rg|]; unfold grid_mean; rewrite Hb.
  - destruct Hv as [arg Hrg].
    pose proof (region_facts_of g arg rg (nlat_gt1 _ _ _ _ _ Hg) (nlon_gt0 _ _ _ _ _ Hg) Hrg) as RF.
    unfold region_area, extract, extract_one. rewrite (rf_grid _ _ RF), Hb, gpa_length, Nat.eqb_refl.
    simpl bind. fold (extract2 rg m). rewrite (extract2_submat arg) by auto. reflexivity.
  - simpl passert. rewrite submat_all by auto. unfold sel_rows, sel_cols. rewrite seq_length.
    f_equal. rewrite (nth_ext_tab (gridpoint_area g) 0) at 1. rewrite gpa_length. reflexivity.
Qed.

Lemma sel_rows_lt rg i : valid_region g rg -> In i (sel_rows g rg) -> (i < g_nlat g)%nat.
Proof.
  destruct rg as [rg|]; simpl.
  - intros [arg H]. apply (rf_lat_lt _ _ (region_facts_of g arg rg (nlat_gt1 _ _ _ _ _ Hg) (nlon_gt0 _ _ _ _ _ Hg) H)).
  - intros _ Hi. apply in_seq in Hi. lia.
Qed.
Lemma sel_cols_lt rg j : valid_region g rg -> In j (sel_cols g rg) -> (j < g_nlon g)%nat.
Proof.
  destruct rg as [rg|]; simpl.
  - intros [arg H]. apply (rf_lon_lt _ _ (region_facts_of g arg rg (nlat_gt1 _ _ _ _ _ Hg) (nlon_gt0 _ _ _ _ _ Hg) H)).
  - intros _ Hi. apply in_seq in Hi. lia.
Qed.

Lemma area_pos_sel rg i : valid_region g rg -> In i (sel_rows g rg) -> 0 < area i.
Proof. intros Hv Hi. apply (gpa_pos _ _ _ _ _ Hg). now apply (sel_rows_lt rg). Qed.

Lemma mean_formula rg m : valid_region g rg -> shaped (g_nlat g) (g_nlon g) m ->
  sel_rows g rg <> [] -> sel_cols g rg <> [] ->
  let I := sel_rows g rg in let J := sel_cols g rg in
  (forall i, In i I -> 0 < area i)
  /\ grid_mean g (A2 m) AxNone rg = Ok (MScalar (weighted_mean area I J (mget m)))
  /\ (forall ax, is_meridional_axis ax = true -> grid_mean g (A2 m) ax rg
        = Ok (MProfile (map (fun j => weighted_mean area I [j] (mget m)) J)))
  /\ (forall ax, is_zonal_axis ax = true -> grid_mean g (A2 m) ax rg
        = Ok (MProfile (map (fun i => weighted_mean area [i] J (mget m)) I))).
Proof.
  intros Hv Hm HI HJ I J.
  assert (Hpos : forall i, In i I -> 0 < area i) by (intros; now apply (area_pos_sel rg)).
  assert (HJn : 0 < INR (length J)) by now apply length_pos_INR.
  assert (HIp : 0 < sum_over I area) by now apply sum_over_pos.
  destruct (mean_core_forms (mget m) I J area HI HJ) as [E1 [E2 E3]].
  split; [exact Hpos|]. split; [|split].
  - rewrite grid_mean_core by auto. fold I. fold J. rewrite E1. do 2 f_equal. unfold weighted_mean.
    replace (sum_over I (fun i => sum_over J (fun _ => area i))) with (INR (length J) * sum_over I area).
    + field. lra.
    + rewrite <- sum_over_scal. apply sum_over_ext. intros. now rewrite sum_over_const.
  - intros ax Hax. rewrite grid_mean_core by auto. fold I. fold J. rewrite E2 by auto. do 2 f_equal.
    apply map_ext. intros j. unfold weighted_mean. simpl.
    apply f_equal2; apply sum_over_ext; intros; ring.
  - intros ax Hax. rewrite grid_mean_core by auto. fold I. fold J. rewrite E3 by auto. do 2 f_equal.
    apply map_ext_in. intros i Hi. unfold weighted_mean. simpl. rewrite !Rplus_0_r.
    rewrite sum_over_scal, sum_over_const. specialize (Hpos i Hi). field. lra.
Qed.
End Mean.

Lemma weighted_mean_const {A B} (w : A -> R) (I : list A) (J : list B) f c : I <> [] -> J <> [] ->
  (forall i, In i I -> 0 < w i) -> (forall i j, In i I -> In j J -> f i j = c) ->
  weighted_mean w I J f = c.
Proof.
  intros HI HJ Hw Hf. unfold weighted_mean.
  assert (0 < sum_over I (fun i => sum_over J (fun _ => w i))).
  { apply sum_over_pos; auto. intros. apply sum_over_pos; auto. }
  replace (sum_over I (fun i => sum_over J (fun j => w i * f i j)))
    with (c * sum_over I (fun i => sum_over J (fun _ => w i))).
  - field. lra.
  - rewrite <- sum_over_scal. apply sum_over_ext. intros i Hi. rewrite <- sum_over_scal.
    apply sum_over_ext. intros j Hj. rewrite Hf by auto. ring.
Qed.
Lemma weighted_mean_linear {A B} (w : A -> R) (I : list A) (J : list B) f h a b :
  weighted_mean w I J (fun i j => a * f i j + b * h i j)
  = a * weighted_mean w I J f + b * weighted_mean w I J h.
Proof.
  unfold weighted_mean, Rdiv. rewrite <- !Rmult_assoc, <- Rmult_plus_distr_r. f_equal.
  rewrite <- !sum_over_scal, <- sum_over_plus. apply sum_over_ext. intros i _.
  rewrite <- !sum_over_scal, <- sum_over_plus. apply sum_over_ext. intros j _. ring.
Qed.
Lemma weighted_mean_ext {A B} (w : A -> R) (I : list A) (J : list B) f h :
  (forall i j, In i I -> In j J -> f i j = h i j) -> weighted_mean w I J f = weighted_mean w I J h.
Proof.
  intros H. unfold weighted_mean. f_equal. apply sum_over_ext. intros i Hi. apply sum_over_ext.
  intros j Hj. now rewrite H.
Qed.
Lemma weighted_mean_bounds {A B} (w : A -> R) (I : list A) (J : list B) f lo hi : I <> [] -> J <> [] ->
  (forall i, In i I -> 0 < w i) -> (forall i j, In i I -> In j J -> lo <= f i j <= hi) ->
  lo <= weighted_mean w I J f <= hi.
Proof.
  intros HI HJ Hw Hf. unfold weighted_mean.
  assert (Hp : 0 < sum_over I (fun i => sum_over J (fun _ => w i))).
  { apply sum_over_pos; auto. intros. apply sum_over_pos; auto. }
  set (D := sum_over I (fun i => sum_over J (fun _ => w i))) in *.
  set (N := sum_over I (fun i => sum_over J (fun j => w i * f i j))).
  assert (lo * D <= N <= hi * D).
  { unfold D, N. split; rewrite <- sum_over_scal; apply sum_over_le; intros i Hi;
    rewrite <- sum_over_scal; apply sum_over_le; intros j Hj; specialize (Hf i j Hi Hj);
    specialize (Hw i Hi); nra. }
  split.
  - apply (Rmult_le_reg_r D); auto. unfold Rdiv. rewrite Rmult_assoc, Rinv_l, Rmult_1_r by lra. lra.
  - apply (Rmult_le_reg_r D); auto. unfold Rdiv. rewrite Rmult_assoc, Rinv_l, Rmult_1_r by lra. lra.
Qed.
Lemma weighted_mean_decompose {A B} (w : A -> R) (I : list A) (J : list B) f : I <> [] -> J <> [] ->
  (forall i, In i I -> 0 < w i) ->
  weighted_mean w I J f = weighted_mean w I [tt] (fun i _ => weighted_mean w [i] J f).
Proof.
  intros HI HJ Hw. unfold weighted_mean at 1 2. simpl.
  assert (HJn : 0 < INR (length J)) by now apply length_pos_INR.
  assert (HIp : 0 < sum_over I w) by now apply sum_over_pos.
  replace (sum_over I (fun i => sum_over J (fun _ => w i))) with (INR (length J) * sum_over I w).
  2:{ rewrite <- sum_over_scal. apply sum_over_ext. intros. now rewrite sum_over_const. }
  replace (sum_over I (fun i => w i + 0)) with (sum_over I w) by (apply sum_over_ext; intros; ring).
  replace (sum_over I (fun i => sum_over J (fun j => w i * f i j)))
    with (INR (length J) * sum_over I (fun i => w i * weighted_mean w [i] J f + 0)).
  - field. lra.
  - rewrite <- sum_over_scal. apply sum_over_ext. intros i Hi. unfold weighted_mean. simpl.
    rewrite !Rplus_0_r, sum_over_scal, sum_over_const. specialize (Hw i Hi). field. lra.
Qed.

Section MeanTheorems.
Variables (res rs om : R) (nt : option Z) (g : grid) (rg : option region).
Hypothesis Hg : mk_grid res rs om nt = Ok g.
Hypothesis Hv : valid_region g rg.
Hypothesis HI : sel_rows g rg <> [].
Hypothesis HJ : sel_cols g rg <> [].
Let I := sel_rows g rg.
Let J := sel_cols g rg.
Let area i := nth i (gridpoint_area g) 0.

(** the list of (rows, columns) blocks averaged for an axis *)
Definition blocks (ax : axis_arg) : list (list nat * list nat) :=
  match ax with
  | AxNone => [(I, J)]
  | _ => if is_meridional_axis ax then map (fun j => (I, [j])) J else map (fun i => ([i], J)) I
  end.

Lemma documented_cases ax : documented_axis ax <->
  ax = AxNone \/ is_meridional_axis ax = true \/ is_zonal_axis ax = true.
Proof.
  unfold documented_axis. split.
  - assert (E0 : Reqb 0 0 = true) by now apply Reqb_true.
    assert (E2 : Reqb (-2) (-2) = true) by now apply Reqb_true.
    assert (E1 : Reqb 1 1 = true) by now apply Reqb_true.
    assert (Em : Reqb (-1) (-1) = true) by now apply Reqb_true.
    intros [->|[->|[->|[->|[->|[->| -> ]]]]]]; simpl; rewrite ?E0, ?E1, ?E2, ?Em, ?orb_true_r; auto.
  - intros [->|[H|H]]; auto; destruct ax as [|x|s|]; simpl in H; try discriminate.
    + apply orb_true_iff in H. rewrite !Reqb_true in H. destruct H; subst; tauto.
    + apply String.eqb_eq in H. subst. tauto.
    + apply orb_true_iff in H. rewrite !Reqb_true in H. destruct H; subst; tauto.
    + apply String.eqb_eq in H. subst. tauto.
Qed.

Lemma zonal_not_meridional ax : is_zonal_axis ax = true -> is_meridional_axis ax = false.
Proof.
  intros Hax. destruct ax as [|x|s|]; simpl in *; auto.
  - apply orb_true_iff in Hax. apply orb_false_iff. rewrite !Reqb_false.
    rewrite !Reqb_true in Hax. destruct Hax; subst; split; lra.
  - apply String.eqb_eq in Hax. now subst.
Qed.

Lemma mean_blocks ax m : documented_axis ax -> shaped (g_nlat g) (g_nlon g) m ->
  exists r, grid_mean g (A2 m) ax rg = Ok r
    /\ result_values r = map (fun b => weighted_mean area (fst b) (snd b) (mget m)) (blocks ax).
Proof.
  intros Hax Hm. destruct (mean_formula _ _ _ _ _ Hg rg m Hv Hm HI HJ) as [_ [E1 [E2 E3]]].
  apply documented_cases in Hax. destruct Hax as [->|[Hax|Hax]].
  - eexists. split; [apply E1|]. reflexivity.
  - eexists. split; [apply E2; auto|]. simpl. unfold blocks.
    destruct ax; try discriminate; rewrite Hax, map_map; reflexivity.
  - eexists. split; [apply E3; auto|]. simpl. unfold blocks.
    pose proof (zonal_not_meridional _ Hax) as Hn.
    destruct ax; try discriminate; rewrite Hn, map_map; reflexivity.
Qed.

Lemma blocks_sub ax b : In b (blocks ax) ->
  fst b <> [] /\ snd b <> [] /\ (forall i, In i (fst b) -> In i I) /\ (forall j, In j (snd b) -> In j J).
Proof.
  assert (H0 : In b [(I, J)] -> fst b <> [] /\ snd b <> [] /\ (forall i, In i (fst b) -> In i I) /\ (forall j, In j (snd b) -> In j J)).
  { intros [<-|[]]. simpl. auto. }
  assert (H1 : In b (map (fun j => (I, [j])) J) -> fst b <> [] /\ snd b <> [] /\ (forall i, In i (fst b) -> In i I) /\ (forall j, In j (snd b) -> In j J)).
  { intros H. apply in_map_iff in H. destruct H as [j [<- Hj]]. simpl. repeat split; auto; try easy.
    intros k [<-|[]]; auto. }
  assert (H2 : In b (map (fun i => ([i], J)) I) -> fst b <> [] /\ snd b <> [] /\ (forall i, In i (fst b) -> In i I) /\ (forall j, In j (snd b) -> In j J)).
  { intros H. apply in_map_iff in H. destruct H as [j [<- Hj]]. simpl. repeat split; auto; try easy.
    intros k [<-|[]]; auto. }
  unfold blocks. destruct ax; auto; destruct (is_meridional_axis _); auto.
Qed.

Lemma area_pos_I i : In i I -> 0 < area i.
Proof. intros H. apply (area_pos_sel _ _ _ _ _ Hg rg); auto. Qed.

Lemma mean_constant ax m c : documented_axis ax -> shaped (g_nlat g) (g_nlon g) m ->
  (forall i j, In i I -> In j J -> mget m i j = c) ->
  exists r, grid_mean g (A2 m) ax rg = Ok r /\ result_values r <> []
    /\ forall x, In x (result_values r) -> x = c.
Proof.
  intros Hax Hm Hc. destruct (mean_blocks ax m Hax Hm) as [r [E Ev]]. exists r. split; auto.
  rewrite Ev. split.
  - assert (M : forall A B (f : A -> B) l, l <> [] -> map f l <> []) by (intros A B f [|? ?]; easy).
    apply M. unfold blocks. destruct ax as [|x|s|]; [easy| | |]; destruct (is_meridional_axis _); apply M; auto.
  - intros x Hx. apply in_map_iff in Hx. destruct Hx as [b [<- Hb]].
    apply blocks_sub in Hb. destruct Hb as [H1 [H2 [H3 H4]]].
    apply weighted_mean_const; auto using area_pos_I.
Qed.

Lemma mean_bounds ax m lo hi : documented_axis ax -> shaped (g_nlat g) (g_nlon g) m ->
  (forall i j, In i I -> In j J -> lo <= mget m i j <= hi) ->
  exists r, grid_mean g (A2 m) ax rg = Ok r /\ forall x, In x (result_values r) -> lo <= x <= hi.
Proof.
  intros Hax Hm Hc. destruct (mean_blocks ax m Hax Hm) as [r [E Ev]]. exists r. split; auto.
  rewrite Ev. intros x Hx. apply in_map_iff in Hx. destruct Hx as [b [<- Hb]].
  apply blocks_sub in Hb. destruct Hb as [H1 [H2 [H3 H4]]].
  apply weighted_mean_bounds; auto using area_pos_I.
Qed.

Lemma mean_linear ax m h a b : documented_axis ax -> shaped (g_nlat g) (g_nlon g) m ->
  shaped (g_nlat g) (g_nlon g) h ->
  exists rm rh rc, grid_mean g (A2 m) ax rg = Ok rm /\ grid_mean g (A2 h) ax rg = Ok rh
    /\ grid_mean g (A2 (madd (mscale a m) (mscale b h))) ax rg = Ok rc
    /\ result_values rc = vadd (vscale a (result_values rm)) (vscale b (result_values rh)).
Proof.
  intros Hax Hm Hh. set (c := madd (mscale a m) (mscale b h)).
  assert (Hc : shaped (g_nlat g) (g_nlon g) c) by (apply shaped_map2; now apply shaped_mscale).
  destruct (mean_blocks ax m Hax Hm) as [rm [Em Vm]].
  destruct (mean_blocks ax h Hax Hh) as [rh [Eh Vh]].
  destruct (mean_blocks ax c Hax Hc) as [rc [Ec Vc]].
  exists rm, rh, rc. split; [auto|]. split; [auto|]. split; [auto|].
  rewrite Vm, Vh, Vc. unfold vadd, vscale. rewrite !map_map, map2_map_l, map2_map_r, map2_diag.
  apply map_ext_in. intros bl Hb. apply blocks_sub in Hb. destruct Hb as [_ [_ [HbI HbJ]]].
  rewrite <- weighted_mean_linear. apply weighted_mean_ext. intros i j Hi Hj.
  assert (Hi' : (i < g_nlat g)%nat) by (apply (sel_rows_lt _ _ _ _ _ Hg rg); auto; now apply HbI).
  assert (Hj' : (j < g_nlon g)%nat) by (apply (sel_cols_lt _ _ _ _ _ Hg rg); auto; now apply HbJ).
  unfold c, madd, vadd. rewrite (mget_map2 (g_nlat g) (g_nlon g)) by (auto; now apply shaped_mscale).
  now rewrite !(mget_mscale (g_nlat g) (g_nlon g)).
Qed.

Lemma mean_decompose m : shaped (g_nlat g) (g_nlon g) m ->
  exists x v, grid_mean g (A2 m) AxNone rg = Ok (MScalar x)
    /\ grid_mean g (A2 m) (AxStr "zonal") rg = Ok (MProfile v) /\ length v = length I
    /\ x = Rsum (vmul (map area I) v) / Rsum (map area I).
Proof.
  intros Hm. destruct (mean_formula _ _ _ _ _ Hg rg m Hv Hm HI HJ) as [Hp [E1 [_ E3]]].
  eexists. eexists. split; [exact E1|]. split; [apply E3; reflexivity|].
  split; [apply map_length|].
  fold I. fold J. rewrite weighted_mean_decompose; auto.
  unfold weighted_mean at 1. simpl. unfold vmul. rewrite map2_map_l, map2_map_r, map2_diag.
  rewrite <- !sum_over_Rsum.
  assert (Q : forall a b c d : R, a = c -> b = d -> a / b = c / d) by (intros; now subst).
  apply Q; apply sum_over_ext; intros; unfold area; ring.
Qed.
End MeanTheorems.

(** ** C08 *)
Lemma mean_axis_synonyms g f rg :
  grid_mean g f (AxNum 0) rg = grid_mean g f (AxStr "meridional") rg
  /\ grid_mean g f (AxNum (-2)) rg = grid_mean g f (AxStr "meridional") rg
  /\ grid_mean g f (AxNum 1) rg = grid_mean g f (AxStr "zonal") rg
  /\ grid_mean g f (AxNum (-1)) rg = grid_mean g f (AxStr "zonal") rg.
Proof.
  assert (C : forall a b, a <> AxNone -> b <> AxNone -> is_meridional_axis a = is_meridional_axis b ->
     is_zonal_axis a = is_zonal_axis b ->
     grid_mean g f a rg = grid_mean g f b rg).
  { intros a b Ha Hb E1 E2.
    assert (M : forall m nc ar, mean_core m nc ar a = mean_core m nc ar b).
    { intros. unfold mean_core. rewrite E1, E2. destruct a, b; try easy. }
    unfold grid_mean. destruct rg as [r|]; destruct f as [v|m|]; auto; try (now rewrite M).
    destruct (extract r [A2 m]) as [[[|m'|]|]|]; simpl; auto;
      destruct (region_area r); simpl; auto; now rewrite ?M. }
  assert (E0 : Reqb 0 0 = true) by now apply Reqb_true.
  assert (E2 : Reqb (-2) (-2) = true) by now apply Reqb_true.
  assert (E1 : Reqb 1 1 = true) by now apply Reqb_true.
  assert (Em : Reqb (-1) (-1) = true) by now apply Reqb_true.
  assert (N : forall x y, x <> y -> Reqb x y = false) by (intros; now apply Reqb_false).
  repeat split; apply C; try easy; simpl; rewrite ?E0, ?E1, ?E2, ?Em, ?orb_true_r; auto;
    rewrite ?N by lra; auto.
Qed.

Lemma mean_bad_axis res rs om nt g rg m ax : mk_grid res rs om nt = Ok g -> valid_region g rg ->
  shaped (g_nlat g) (g_nlon g) m -> ~ documented_axis ax ->
  grid_mean g (A2 m) ax rg = Err ValueError.
Proof.
  intros Hg Hv Hm Hax. rewrite (grid_mean_core _ _ _ _ _ Hg) by auto. unfold mean_core.
  rewrite documented_cases in Hax.
  destruct (is_meridional_axis ax); [tauto|]. destruct (is_zonal_axis ax); [tauto|].
  destruct ax; auto. tauto.
Qed.

Lemma mean_bad_shape g rg f ax :
  match f with
  | A2 m => ~ shaped (g_nlat g) (g_nlon g) m
            /\ match rg with None => True
               | Some r => ~ shaped (fst (region_shape r)) (snd (region_shape r)) m end
  | _ => True
  end -> grid_mean g f ax rg = Err AssertionError.
Proof.
  intros H. unfold grid_mean. destruct rg as [r|]; destruct f as [v|m|]; auto.
  - destruct H as [H1 H2].
    replace (shapedb (g_nlat g) (g_nlon g) m) with false by
      (symmetry; apply not_true_is_false; now rewrite shapedb_spec).
    unfold passert.
    replace (shapedb (fst (region_shape r)) (snd (region_shape r)) m) with false by
      (symmetry; apply not_true_is_false; now rewrite shapedb_spec). reflexivity.
  - destruct H as [H1 _]. unfold passert.
    now replace (shapedb (g_nlat g) (g_nlon g) m) with false by
      (symmetry; apply not_true_is_false; now rewrite shapedb_spec).
Qed.

(** ** C86: extracting first *)
Lemma mean_of_extracted res rs om nt g arg rg m m' ax : mk_grid res rs om nt = Ok g ->
  region_getitem g arg = Ok rg -> shaped (g_nlat g) (g_nlon g) m ->
  extract rg [A2 m] = Ok (ExOne (A2 m')) ->
  ~ shaped (g_nlat g) (g_nlon g) m' ->
  grid_mean g (A2 m') ax (Some rg) = grid_mean g (A2 m) ax (Some rg).
Proof.
  intros Hg Hrg Hm Hex Hns. unfold grid_mean.
  replace (shapedb (g_nlat g) (g_nlon g) m') with false by
    (symmetry; apply not_true_is_false; now rewrite shapedb_spec).
  replace (shapedb (g_nlat g) (g_nlon g) m) with true by (symmetry; now apply shapedb_spec).
  rewrite Hex. simpl. unfold passert.
  replace (shapedb (length (rg_lat_idx rg)) (length (rg_lon_idx rg)) m') with true; auto.
  symmetry. apply shapedb_spec.
  destruct (extract_2d_lemma _ _ _ _ _ Hg arg rg Hrg m Hm) as [m2 [E2 [S2 _]]].
  rewrite E2 in Hex. injection Hex as <-. exact S2.
Qed.

(** ** selections and the text map *)
Lemma region_lat_slice g a b slon rg : region_getitem g (IdxTuple [slon; SelSlice a b false]) = Ok rg ->
  (1 < g_nlat g)%nat ->
  strictly_decreasing (region_lat rg) /\
  exactly (g_lat g) (fun y =>
    match a, b with
    | BNone, BNone => True
    | BNone, BNum h => y <= h
    | BNum l, BNone => l <= y
    | BNum l, BNum h => Rmin l h <= y <= Rmax l h
    | _, _ => False
    end) (region_lat rg).
Proof.
  intros H Hn. apply region_getitem_inv in H.
  destruct H as [s1 [s2 [lo [la [[E|[E _]] [_ [Hla ->]]]]]]]; [|discriminate].
  injection E as -> <-.
  pose proof (lat_idx_facts g _ la Hn Hla) as [_ [_ Hd]].
  split; [exact Hd|]. unfold region_lat. cbn [rg_grid rg_lat_idx].
  unfold get_lat_indices in Hla. destruct (check_slice a b false) as [p|] eqn:Ec; [|discriminate].
  cbn [bind] in Hla. apply Ok_inj in Hla. subst la. rewrite lat_range_spec. apply filter_exactly.
  intros y. destruct a, b; simpl in Ec; try discriminate; injection Ec as <-; cbn [fst snd].
  - tauto.
  - apply Rleb_true.
  - apply Rleb_true.
  - rewrite andb_true_iff, !Rleb_true. tauto.
Qed.

Lemma region_lat_hemisphere g t slon rg : region_getitem g (IdxTuple [slon; SelStr t]) = Ok rg ->
  (1 < g_nlat g)%nat -> strictly_decreasing (region_lat rg) /\
  ((t = "N"%string /\ exactly (g_lat g) (fun y => 0 <= y) (region_lat rg))
   \/ (t = "S"%string /\ exactly (g_lat g) (fun y => y <= 0) (region_lat rg))).
Proof.
  intros H Hn. apply region_getitem_inv in H.
  destruct H as [s1 [s2 [lo [la [[E|[E _]] [_ [Hla ->]]]]]]]; [|discriminate].
  injection E as -> <-.
  pose proof (lat_idx_facts g _ la Hn Hla) as [_ [_ Hd]]. split; [exact Hd|].
  unfold region_lat. cbn [rg_grid rg_lat_idx]. unfold get_lat_indices in Hla.
  destruct (String.eqb_spec t "N") as [->|].
  - left. split; [reflexivity|]. apply Ok_inj in Hla. subst la. rewrite lat_range_spec.
    intros y. rewrite filter_In, andb_true_iff, !Rleb_true.
    rewrite Rmin_left, Rmax_right by lra. split; [tauto|]. intros [H1 H2].
    pose proof (lat_bounds g y H1). repeat split; auto; lra.
  - destruct (String.eqb_spec t "S") as [->|]; [|discriminate].
    right. split; [reflexivity|]. apply Ok_inj in Hla. subst la. rewrite lat_range_spec.
    intros y. rewrite filter_In, andb_true_iff, !Rleb_true.
    rewrite Rmin_left, Rmax_right by lra. split; [tauto|]. intros [H1 H2].
    pose proof (lat_bounds g y H1). repeat split; auto; lra.
Qed.

Lemma region_lon_slice g a b slat rg : region_getitem g (IdxTuple [SelSlice a b false; slat]) = Ok rg ->
  (0 < g_nlon g)%nat ->
  match a, b with
  | BNum l, BNum h =>
      if Rlt_dec h l then
        exists W E, region_lon rg = W ++ E
          /\ strictly_increasing W /\ exactly (g_lon g) (fun x => l <= x) W
          /\ strictly_increasing E /\ exactly (g_lon g) (fun x => x <= h) E
          /\ (forall x, In x W -> ~ In x E)
      else strictly_increasing (region_lon rg) /\ exactly (g_lon g) (fun x => l <= x <= h) (region_lon rg)
  | BNum l, _ => strictly_increasing (region_lon rg) /\ exactly (g_lon g) (fun x => l <= x) (region_lon rg)
  | _, BNum h => strictly_increasing (region_lon rg) /\ exactly (g_lon g) (fun x => x <= h) (region_lon rg)
  | _, _ => region_lon rg = g_lon g
  end.
Proof.
  intros H Hn. pose proof (lon_increasing g Hn) as Hs. apply region_getitem_inv in H.
  destruct H as [s1 [s2 [lo [la [[E|[E _]] [Hlo [_ ->]]]]]]]; [|discriminate].
  injection E as <- ->. unfold region_lon. cbn [rg_grid rg_lon_idx].
  unfold get_lon_indices in Hlo. destruct (check_slice a b false) as [p|] eqn:Ec; [|discriminate].
  cbn [bind] in Hlo. apply Ok_inj in Hlo. subst lo.
  destruct a as [|l|], b as [|h|]; simpl in Ec; try discriminate; injection Ec as <-; cbn [fst snd].
  - unfold lon_range. rewrite <- lon_length. apply take_seq.
  - unfold lon_range. rewrite take_pick. split; [now apply si_filter|]. apply filter_exactly. intros; apply Rleb_true.
  - unfold lon_range. rewrite take_pick. split; [now apply si_filter|]. apply filter_exactly. intros; apply Rleb_true.
  - destruct (Rlt_dec h l) as [Hlt|Hge].
    + rewrite lon_range_wrap, take_app, !take_pick by auto.
      eexists. eexists. split; [reflexivity|]. split; [now apply si_filter|].
      split; [apply filter_exactly; intros; apply Rleb_true|]. split; [now apply si_filter|].
      split; [apply filter_exactly; intros; apply Rleb_true|].
      intros x Hx Hy. apply filter_In in Hx. apply filter_In in Hy.
      rewrite !Rleb_true in *. lra.
    + unfold lon_range. replace (Rltb h l) with false by (symmetry; apply Rltb_false; lra).
      rewrite take_pick. split; [now apply si_filter|]. apply filter_exactly.
      intros x. rewrite andb_true_iff, !Rleb_true. tauto.
Qed.

(** a single value *)
Lemma pick_single_spec coord x l : pick_single coord x = Ok l ->
  exists i, l = [i] /\ (i < length coord)%nat /\ isclose (nth i coord 0) x = true
    /\ (forall k, (k < length coord)%nat -> isclose (nth k coord 0) x = true -> k = i).
Proof.
  intros H. apply pick_single_inv in H. destruct H as [E HL].
  destruct l as [|i [|? ?]]; try (simpl in HL; lia). exists i. split; auto.
  assert (Hi : In i (pick coord (fun c => isclose c x))) by (rewrite <- E; simpl; auto).
  pose proof (pick_lt _ _ _ Hi). unfold pick in Hi. apply filter_In in Hi.
  split; auto. split; [tauto|]. intros k Hk Hc.
  assert (Hin : In k [i]). { rewrite E. apply filter_In. rewrite in_seq. split; [lia|auto]. }
  destruct Hin as [->|[]]; auto.
Qed.

Lemma region_single g x slat rg : region_getitem g (IdxTuple [SelNum x; slat]) = Ok rg ->
  exists c, region_lon rg = [c] /\ In c (g_lon g)
    /\ Rabs (c - x) <= / 100000000 + / 100000 * Rabs x
    /\ forall c', In c' (g_lon g) -> Rabs (c' - x) <= / 100000000 + / 100000 * Rabs x -> c' = c.
Proof.
  intros H. apply region_getitem_inv in H.
  destruct H as [s1 [s2 [lo [la [[E|[E _]] [Hlo [_ ->]]]]]]]; [|discriminate].
  injection E as <- ->. unfold get_lon_indices in Hlo. apply pick_single_spec in Hlo.
  destruct Hlo as [i [-> [Hi [Hc Hu]]]]. exists (nth i (g_lon g) 0).
  split; [reflexivity|]. split; [now apply nth_In|]. split; [now apply isclose_true|].
  intros c' Hin Hc'. apply (In_nth _ _ 0) in Hin. destruct Hin as [k [Hk <-]].
  f_equal. apply Hu; auto. now apply isclose_true.
Qed.
Lemma region_single_lat g x slon rg : region_getitem g (IdxTuple [slon; SelNum x]) = Ok rg ->
  exists c, region_lat rg = [c] /\ In c (g_lat g)
    /\ Rabs (c - x) <= / 100000000 + / 100000 * Rabs x
    /\ forall c', In c' (g_lat g) -> Rabs (c' - x) <= / 100000000 + / 100000 * Rabs x -> c' = c.
Proof.
  intros H. apply region_getitem_inv in H.
  destruct H as [s1 [s2 [lo [la [[E|[E _]] [_ [Hla ->]]]]]]]; [|discriminate].
  injection E as -> <-. unfold get_lat_indices in Hla. apply pick_single_spec in Hla.
  destruct Hla as [i [-> [Hi [Hc Hu]]]]. exists (nth i (g_lat g) 0).
  split; [reflexivity|]. split; [now apply nth_In|]. split; [now apply isclose_true|].
  intros c' Hin Hc'. apply (In_nth _ _ 0) in Hin. destruct Hin as [k [Hk <-]].
  f_equal. apply Hu; auto. now apply isclose_true.
Qed.

(** every failure of the indexer is an IndexError *)
Lemma pick_single_err coord x e : pick_single coord x = Err e -> e = IndexError.
Proof. unfold pick_single. destruct (Nat.eqb _ _); intros H; inversion H; auto. Qed.
Lemma check_slice_err a b st e : check_slice a b st = Err e -> e = IndexError.
Proof. destruct a, b, st; simpl; intros H; inversion H; auto. Qed.
Lemma lat_indices_err g s e : get_lat_indices g s = Err e -> e = IndexError.
Proof.
  destruct s; simpl.
  - apply pick_single_err.
  - destruct (String.eqb s "N"); [discriminate|]. destruct (String.eqb s "S"); [discriminate|]. intros H; now inversion H.
  - destruct (check_slice start stop step) eqn:E; simpl; [discriminate|]. intros H; inversion H; subst. now apply check_slice_err in E.
  - intros H; now inversion H.
Qed.
Lemma lon_indices_err g s e : get_lon_indices g s = Err e -> e = IndexError.
Proof.
  destruct s; simpl.
  - apply pick_single_err.
  - intros H; now inversion H.
  - destruct (check_slice start stop step) eqn:E; simpl; [discriminate|]. intros H; inversion H; subst. now apply check_slice_err in E.
  - intros H; now inversion H.
Qed.
Lemma region_getitem_err g arg e : (1 < g_nlat g)%nat -> (0 < g_nlon g)%nat ->
  region_getitem g arg = Err e -> e = IndexError.
Proof.
  intros H1 H2.
  assert (G : forall slon slat, region_getitem g (IdxTuple [slon; slat]) = Err e -> e = IndexError).
  { intros slon slat. rewrite region_getitem_tuple by auto.
    destruct (get_lon_indices g slon) eqn:E1; cbn [bind]; [|intros H; inversion H; subst; now apply lon_indices_err in E1].
    destruct (get_lat_indices g slat) eqn:E2; cbn [bind]; [discriminate|intros H; inversion H; subst; now apply lat_indices_err in E2]. }
  destruct arg as [s|[|s1 [|s2 [|? ?]]]].
  - exact (G s (SelSlice BNone BNone false)).
  - intros H; now inversion H.
  - intros H; now inversion H.
  - apply G.
  - intros H; now inversion H.
Qed.

Lemma region_malformed g : (1 < g_nlat g)%nat -> (0 < g_nlon g)%nat ->
  (forall l, length l <> 2%nat -> region_getitem g (IdxTuple l) = Err IndexError)
  /\ (forall t slat, region_getitem g (IdxTuple [SelStr t; slat]) = Err IndexError)
  /\ (forall slon t, t <> "N"%string -> t <> "S"%string ->
        region_getitem g (IdxTuple [slon; SelStr t]) = Err IndexError)
  /\ (forall a b slat, region_getitem g (IdxTuple [SelSlice a b true; slat]) = Err IndexError)
  /\ (forall a b slon, region_getitem g (IdxTuple [slon; SelSlice a b true]) = Err IndexError)
  /\ (forall b st slat, region_getitem g (IdxTuple [SelSlice BOther b st; slat]) = Err IndexError)
  /\ (forall a st slat, region_getitem g (IdxTuple [SelSlice a BOther st; slat]) = Err IndexError)
  /\ (forall b st slon, region_getitem g (IdxTuple [slon; SelSlice BOther b st]) = Err IndexError)
  /\ (forall a st slon, region_getitem g (IdxTuple [slon; SelSlice a BOther st]) = Err IndexError)
  /\ (forall slat, region_getitem g (IdxTuple [SelOther; slat]) = Err IndexError)
  /\ (forall slon, region_getitem g (IdxTuple [slon; SelOther]) = Err IndexError).
Proof.
  intros H1 H2.
  assert (Glon : forall s slat, get_lon_indices g s = Err IndexError ->
            region_getitem g (IdxTuple [s; slat]) = Err IndexError).
  { intros s slat H. rewrite region_getitem_tuple by auto. now rewrite H. }
  assert (Glat : forall s slon, get_lat_indices g s = Err IndexError ->
            region_getitem g (IdxTuple [slon; s]) = Err IndexError).
  { intros s slon H. rewrite region_getitem_tuple by auto. rewrite H.
    destruct (get_lon_indices g slon) eqn:E; cbn [bind]; [reflexivity|].
    now apply lon_indices_err in E; subst. }
  split. { intros [|? [|? [|? ?]]] HL; simpl in HL; auto; lia. }
  split. { intros. now apply Glon. }
  split. { intros slon t Hn Hs. apply Glat. unfold get_lat_indices.
           destruct (String.eqb_spec t "N"); [easy|]. now destruct (String.eqb_spec t "S"). }
  split. { intros. apply Glon. now destruct a, b. }
  split. { intros. apply Glat. now destruct a, b. }
  split. { intros. now apply Glon. }
  split. { intros. apply Glon. now destruct a. }
  split. { intros. now apply Glat. }
  split. { intros. apply Glat. now destruct a. }
  split. { intros. now apply Glon. }
  intros. now apply Glat.
Qed.

(** ** repr of a region *)
Lemma region_repr_nonempty rg : rg_lat_idx rg <> [] -> rg_lon_idx rg <> [] ->
  exists r, grid_region_repr rg = Ok r.
Proof.
  intros H1 H2. unfold grid_region_repr.
  destruct (region_lat rg) eqn:E1.
  { unfold region_lat, take_idx in E1. destruct (rg_lat_idx rg); [easy|discriminate]. }
  destruct (region_lon rg) eqn:E2.
  { unfold region_lon, take_idx in E2. destruct (rg_lon_idx rg); [easy|discriminate]. }
  eauto.
Qed.

Lemma region_repr_empty_witness :
  exists g rg, mk_grid 90 1 0 None = Ok g
    /\ region_getitem g (IdxTuple [SelSlice BNone BNone false; SelSlice (BNum 10) (BNum 20) false]) = Ok rg
    /\ grid_region_repr rg = Err IndexError.
Proof.
  exists (gridA 1). eexists. split; [apply gridA_ok; lra|].
  rewrite region_getitem_tuple by (simpl; lia). cbn [get_lon_indices get_lat_indices check_slice bind fst snd].
  split; [reflexivity|].
  unfold grid_region_repr, region_lat. cbn [rg_grid rg_lat_idx]. rewrite lat_range_spec.
  rewrite filter_false; [reflexivity|].
  intros y Hy. rewrite Rmin_left, Rmax_right by lra.
  apply (In_nth _ _ 0) in Hy. destruct Hy as [i [Hi <-]]. rewrite lat_length in Hi.
  rewrite lat_nth by auto. simpl g_nlat in *. apply andb_false_iff. rewrite !Rleb_false.
  replace (INR (3 - 1)) with 2 by (simpl; ring).
  destruct i as [|[|[|?]]]; simpl INR; try lia; lra.
Qed.

Lemma hist_mask_nth values a b n k : (k < n)%nat -> 
  (nth k (hist_mask values a b n) false = true <->
   exists x, In x values /\ a + INR k * ((b - a) / INR n) <= x
     /\ (x < a + INR (S k) * ((b - a) / INR n)
         \/ (S k = n /\ x = a + INR (S k) * ((b - a) / INR n)))).
Proof.
  intros Hk. unfold hist_mask. rewrite tab_nth by auto. rewrite existsb_exists.
  split; intros [x [Hx H]]; exists x; (split; [exact Hx|]).
  - apply andb_true_iff in H. destruct H as [H1 H2]. apply Rleb_true in H1. split; [exact H1|].
    destruct (Nat.eqb_spec (S k) n).
    + apply Rleb_true in H2. destruct H2; auto.
    + apply Rltb_true in H2. auto.
  - destruct H as [H1 H2]. apply andb_true_iff. split; [now apply Rleb_true|].
    destruct (Nat.eqb_spec (S k) n).
    + apply Rleb_true. destruct H2 as [H2|[_ H2]]; lra.
    + apply Rltb_true. destruct H2 as [H2|[H2 _]]; [exact H2|lia].
Qed.

Lemma hist_mask_length values a b n : length (hist_mask values a b n) = n.
Proof. apply tab_length. Qed.

(** X marks: row k counts 20-degree bands from the north, column l 10-degree
    bands eastward from 0. *)
Lemma region_repr_map rg r : grid_region_repr rg = Ok r ->
  shaped 9 36 (rr_map r) /\
  forall k l, (k < 9)%nat -> (l < 36)%nat ->
  (nth l (nth k (rr_map r) []) false = true <->
   (exists y, In y (region_lat rg) /\ 90 - 20 * INR (S k) <= y
       /\ (y < 90 - 20 * INR k \/ (k = 0%nat /\ y = 90)))
   /\ (exists x, In x (region_lon rg) /\ 10 * INR l <= x
       /\ (x < 10 * INR (S l) \/ (l = 35%nat /\ x = 360)))).
Proof.
  unfold grid_region_repr. intros H.
  assert (E : rr_map r = map (fun a => map (fun b => a && b) (hist_mask (region_lon rg) 0 360 36))
                 (rev (hist_mask (region_lat rg) (-90) 90 9))).
  { destruct (region_lat rg); [discriminate|]. destruct (region_lon rg); [discriminate|].
    apply Ok_inj in H. now subst r. }
  rewrite E. clear H E. set (ml := hist_mask (region_lat rg) (-90) 90 9).
  set (mo := hist_mask (region_lon rg) 0 360 36).
  assert (Ll : length ml = 9%nat) by apply hist_mask_length.
  assert (Lo : length mo = 36%nat) by apply hist_mask_length.
  split.
  { split; [now rewrite map_length, rev_length|]. apply Forall_map, Forall_forall.
    intros. now rewrite map_length. }
  intros k l Hk Hl.
  rewrite (nth_map_lt _ _ _ false) by (rewrite rev_length; lia).
  rewrite (nth_map_lt _ _ _ false) by lia.
  rewrite rev_nth by lia. rewrite Ll. rewrite andb_true_iff. unfold ml, mo.
  rewrite !hist_mask_nth by lia.
  replace (S (9 - S k)) with (9 - k)%nat by lia.
  assert (E1 : INR (9 - S k) = 8 - INR k).
  { replace (9 - S k)%nat with (8 - k)%nat by lia. rewrite minus_INR by lia. simpl (INR 8). lra. }
  assert (E2 : INR (9 - k) = 9 - INR k).
  { rewrite minus_INR by lia. simpl (INR 9). lra. }
  rewrite E1, E2.
  replace (INR 9) with 9 by (simpl; lra). replace (INR 36) with 36 by (simpl; lra). rewrite !S_INR.
  split; intros [[y [Hy [Y1 Y2]]] [x [Hx [X1 X2]]]]; (split; [exists y|exists x]);
    (split; [assumption|]); (split; [lra|]).
  - destruct Y2 as [Y2|[Y2 Y3]]; [left; lra|]. assert (k = 0%nat) by lia. subst k.
    right. split; auto. simpl INR in Y3. lra.
  - destruct X2 as [X2|[X2 X3]]; [left; lra|]. assert (l = 35%nat) by lia. subst l.
    right. split; auto. replace (INR 35) with 35 in X3 by (simpl; lra). lra.
  - destruct Y2 as [Y2|[Y2 Y3]]; [left; lra|]. right. subst k. split; auto. simpl. lra.
  - destruct X2 as [X2|[X2 X3]]; [left; lra|]. right. subst l. split; auto.
    replace (INR 35) with 35 by (simpl; lra). lra.
Qed.

(** ** concrete regions on the 90-degree grid *)
Lemma cons_eq {A} (a b : A) l m : a = b -> l = m -> a :: l = b :: m.
Proof. now intros -> ->. Qed.
Ltac listR := repeat (apply cons_eq; [lra|]); reflexivity.
Lemma gridA_lon r : g_lon (gridA r) = [0; 90; 180; 270].
Proof. unfold g_lon, linspace_noend, tab. simpl. listR. Qed.
Lemma gridA_lat r : g_lat (gridA r) = [90; 0; -90].
Proof. unfold g_lat, linspace_end, tab. simpl. listR. Qed.

Ltac rdec :=
  repeat match goal with
  | |- context [Rleb ?a ?b] =>
      first [ replace (Rleb a b) with true by (symmetry; apply Rleb_true; lra)
            | replace (Rleb a b) with false by (symmetry; apply Rleb_false; lra) ]
  | |- context [Rltb ?a ?b] =>
      first [ replace (Rltb a b) with true by (symmetry; apply Rltb_true; lra)
            | replace (Rltb a b) with false by (symmetry; apply Rltb_false; lra) ]
  end.

Definition regionW : region :=
  {| rg_grid := gridA 1; rg_lat_idx := [0; 1; 2]%nat; rg_lon_idx := [1; 2; 3; 0]%nat |}.
Lemma regionW_ok : region_getitem (gridA 1)
  (IdxOne (SelSlice (BNum 90) (BNum 45) false)) = Ok regionW.
Proof.
  change (region_getitem (gridA 1) (IdxTuple [SelSlice (BNum 90) (BNum 45) false; SelSlice BNone BNone false]) = Ok regionW).
  rewrite region_getitem_tuple by (simpl; lia).
  cbn [get_lon_indices get_lat_indices check_slice bind fst snd].
  unfold lon_range, lat_range. rewrite gridA_lon. unfold pick. simpl. rdec. simpl. reflexivity.
Qed.
Definition regionP : region :=
  {| rg_grid := gridA 1; rg_lat_idx := [0; 1]%nat; rg_lon_idx := [3; 0]%nat |}.
Lemma regionP_ok : region_getitem (gridA 1)
  (IdxTuple [SelSlice (BNum 200) (BNum 45) false; SelStr "N"]) = Ok regionP.
Proof.
  rewrite region_getitem_tuple by (simpl; lia).
  cbn [get_lon_indices get_lat_indices check_slice bind fst snd String.eqb Ascii.eqb Bool.eqb].
  unfold lon_range, lat_range. rewrite gridA_lon, gridA_lat. unfold pick. 
  rewrite Rmin_left, Rmax_right by lra. simpl. rdec. simpl. reflexivity.
Qed.

Lemma mean_of_extracted_witness :
  exists g arg rg m m' v v', mk_grid 90 1 0 None = Ok g /\ region_getitem g arg = Ok rg
    /\ shaped (g_nlat g) (g_nlon g) m
    /\ extract rg [A2 m] = Ok (ExOne (A2 m'))
    /\ grid_mean g (A2 m) (AxStr "meridional") (Some rg) = Ok (MProfile v)
    /\ grid_mean g (A2 m') (AxStr "meridional") (Some rg) = Ok (MProfile v')
    /\ v <> v'.
Proof.
  set (m := mat_of 3 4 (fun _ j => INR j)).
  set (m' := mat_of 3 4 (fun _ j => nth j [1; 2; 3; 0] 0)).
  assert (Hm : shaped 3 4 m) by apply shaped_mat_of.
  assert (Hm' : shaped 3 4 m') by apply shaped_mat_of.
  pose proof (gridA_ok 1 ltac:(lra)) as Hg.
  assert (Hv : valid_region (gridA 1) (Some regionW)) by (eexists; apply regionW_ok).
  exists (gridA 1). eexists. exists regionW, m, m'.
  destruct (mean_formula _ _ _ _ _ Hg (Some regionW) m Hv Hm ltac:(easy) ltac:(easy)) as [Hp [_ [E _]]].
  destruct (mean_formula _ _ _ _ _ Hg (Some regionW) m' Hv Hm' ltac:(easy) ltac:(easy)) as [_ [_ [E' _]]].
  eexists. eexists.
  split; [exact Hg|]. split; [apply regionW_ok|]. split; [exact Hm|].
  split. { unfold m, m', extract, extract_one, regionW. simpl. do 3 f_equal.
           unfold mat_of, tab, take_idx. simpl. repeat (apply cons_eq; [listR|]); reflexivity. }
  split; [apply E; reflexivity|]. split; [apply E'; reflexivity|].
  intros H. apply (f_equal (fun l => nth 0 l 0)) in H. simpl in H.
  rewrite (weighted_mean_const _ _ _ _ 1) in H; auto; try easy.
  2:{ intros i j Hi [<-|[]]. unfold m. rewrite mget_mat_of; auto. apply (sel_rows_lt _ _ _ _ _ Hg (Some regionW)); auto. }
  rewrite (weighted_mean_const _ _ _ _ 2) in H; auto; try easy; [lra|].
  intros i j Hi [<-|[]]. unfold m'. rewrite mget_mat_of; auto. apply (sel_rows_lt _ _ _ _ _ Hg (Some regionW)); auto.
Qed.

(** ** statements over accepted grids *)
Lemma cell_areas_lemma : forall res rs om nt g, mk_grid res rs om nt = Ok g ->
  length (gridpoint_area g) = g_nlat g
  /\ (forall i, (i < g_nlat g)%nat -> 0 < nth i (gridpoint_area g) 0)
  /\ (forall i, (i < g_nlat g)%nat ->
        nth i (gridpoint_area g) 0 = nth (g_nlat g - 1 - i) (gridpoint_area g) 0)
  /\ (exists edge : nat -> R, edge 0%nat = PI / 2 /\ edge (g_nlat g) = - (PI / 2)
        /\ (forall i, (0 < i < g_nlat g)%nat ->
              edge i = (nth (i - 1) (g_phi g) 0 + nth i (g_phi g) 0) / 2)
        /\ forall i, (i < g_nlat g)%nat -> edge (S i) < edge i
             /\ nth i (gridpoint_area g) 0 = sector_area rs (deg2rad res) (edge i) (edge (S i)))
  /\ (INR (g_nlon g) * Rsum (gridpoint_area g) = 4 * PI * (rs * rs) <-> is_integer (360 / res)).
Proof.
  intros res rs om nt g Hg. pose proof (mk_grid_facts _ _ _ _ _ Hg) as F.
  pose proof (gf_nlat3 _ _ _ _ F) as H3.
  split; [apply tab_length|]. split; [intros; eapply gpa_pos; eauto|].
  split; [intros; eapply gpa_sym; eauto|]. split; [|eapply gpa_total_iff; eauto].
  exists (fun i => if Nat.eqb i (g_nlat g) then - (PI / 2) else north_edge g i).
  assert (E0 : forall i, (i < g_nlat g)%nat -> Nat.eqb i (g_nlat g) = false)
    by (intros; apply Nat.eqb_neq; lia).
  split; [rewrite E0 by lia; reflexivity|]. split; [now rewrite Nat.eqb_refl|]. split.
  - intros i Hi. rewrite E0 by lia. unfold north_edge.
    destruct (Nat.eqb_spec i 0); [lia|]. unfold mid_phi.
    replace (S (i - 1)) with i by lia. lra.
  - intros i Hi. rewrite (E0 i) by lia.
    assert (Es : (if Nat.eqb (S i) (g_nlat g) then - (PI / 2) else north_edge g (S i)) = south_edge g i).
    { unfold south_edge, north_edge. destruct (Nat.eqb_spec (S i) (g_nlat g)), (Nat.eqb_spec i (g_nlat g - 1)); try lia; auto.
      simpl. now replace (i - 0)%nat with i by lia. }
    rewrite Es. split; [eapply edges_order; eauto|].
    erewrite gpa_val by eauto. unfold g_dlam, g_dlon. now rewrite (gf_res _ _ _ _ F).
Qed.

Lemma total_area_refuted_lemma : exists res rs om g, mk_grid res rs om None = Ok g
  /\ INR (g_nlon g) * Rsum (gridpoint_area g) <> 4 * PI * (rs * rs).
Proof.
  destruct grid7 as [g [Hg _]]. exists 7, 1, 1, g. split; auto.
  rewrite (gpa_total_iff _ _ _ _ _ Hg). apply not_int_360_7.
Qed.

Lemma mean_formula_named : forall res rs om nt g, mk_grid res rs om nt = Ok g -> forall rg m,
  valid_region g rg -> shaped (g_nlat g) (g_nlon g) m ->
  sel_rows g rg <> [] -> sel_cols g rg <> [] ->
  let I := sel_rows g rg in let J := sel_cols g rg in
  let area i := nth i (gridpoint_area g) 0 in
  (forall i, In i I -> 0 < area i)
  /\ grid_mean g (A2 m) AxNone rg = Ok (MScalar (weighted_mean area I J (mget m)))
  /\ grid_mean g (A2 m) (AxStr "meridional") rg
        = Ok (MProfile (map (fun j => weighted_mean area I [j] (mget m)) J))
  /\ grid_mean g (A2 m) (AxStr "zonal") rg
        = Ok (MProfile (map (fun i => weighted_mean area [i] J (mget m)) I)).
Proof.
  intros res rs om nt g Hg rg m Hv Hm HI HJ.
  destruct (mean_formula _ _ _ _ _ Hg rg m Hv Hm HI HJ) as [H1 [H2 [H3 H4]]].
  cbv zeta. split; [exact H1|]. split; [exact H2|]. split; [now apply H3|now apply H4].
Qed.

Section Accepted.
Variables (res rs om : R) (nt : option Z) (g : grid).
Hypothesis Hg : mk_grid res rs om nt = Ok g.
Let N1 := nlat_gt1 _ _ _ _ _ Hg.
Let N0 := nlon_gt0 _ _ _ _ _ Hg.

Lemma latitude_slices : forall a b slon rg, region_getitem g (IdxTuple [slon; SelSlice a b false]) = Ok rg ->
  strictly_decreasing (region_lat rg) /\
  exactly (g_lat g) (fun y =>
    match a, b with
    | BNone, BNone => True
    | BNone, BNum h => y <= h
    | BNum l, BNone => l <= y
    | BNum l, BNum h => Rmin l h <= y <= Rmax l h
    | _, _ => False
    end) (region_lat rg).
Proof. intros. eapply region_lat_slice; eauto. Qed.
Lemma hemispheres : forall t slon rg, region_getitem g (IdxTuple [slon; SelStr t]) = Ok rg ->
  strictly_decreasing (region_lat rg) /\
  ((t = "N"%string /\ exactly (g_lat g) (fun y => 0 <= y) (region_lat rg))
   \/ (t = "S"%string /\ exactly (g_lat g) (fun y => y <= 0) (region_lat rg))).
Proof. intros. eapply region_lat_hemisphere; eauto. Qed.
Lemma slices_accepted : forall a b c d, a <> BOther -> b <> BOther -> c <> BOther -> d <> BOther ->
  exists rg, region_getitem g (IdxTuple [SelSlice a b false; SelSlice c d false]) = Ok rg.
Proof.
  intros a b c d Ha Hb Hc Hd. rewrite region_getitem_tuple by auto.
  unfold get_lon_indices, get_lat_indices.
  destruct a, b; try easy; destruct c, d; try easy; cbn [check_slice bind]; eauto.
Qed.
Lemma longitude_slices : forall a b slat rg, region_getitem g (IdxTuple [SelSlice a b false; slat]) = Ok rg ->
  match a, b with
  | BNum l, BNum h =>
      if Rlt_dec h l then
        exists W E, region_lon rg = W ++ E
          /\ strictly_increasing W /\ exactly (g_lon g) (fun x => l <= x) W
          /\ strictly_increasing E /\ exactly (g_lon g) (fun x => x <= h) E
          /\ (forall x, In x W -> ~ In x E)
      else strictly_increasing (region_lon rg) /\ exactly (g_lon g) (fun x => l <= x <= h) (region_lon rg)
  | BNum l, _ => strictly_increasing (region_lon rg) /\ exactly (g_lon g) (fun x => l <= x) (region_lon rg)
  | _, BNum h => strictly_increasing (region_lon rg) /\ exactly (g_lon g) (fun x => x <= h) (region_lon rg)
  | _, _ => region_lon rg = g_lon g
  end.
Proof. intros a b slat rg H. apply (region_lon_slice g a b slat rg H N0). Qed.

Lemma only_index_errors arg e : region_getitem g arg = Err e -> e = IndexError.
Proof. apply region_getitem_err; auto. Qed.
Definition malformed := region_malformed g N1 N0.

Lemma single_found : (forall c, In c (g_lon g) ->
     (forall c', In c' (g_lon g) -> c' <> c -> / 100000000 + / 100000 * Rabs c < Rabs (c' - c)) ->
     exists rg, region_getitem g (IdxOne (SelNum c)) = Ok rg /\ region_lon rg = [c]).
Proof.
  intros c Hc Hu. apply (In_nth _ _ 0) in Hc. destruct Hc as [i [Hi Ei]].
  assert (E : pick (g_lon g) (fun c0 => isclose c0 c) = [i]).
  { unfold pick. apply filter_seq_single; [exact Hi|rewrite Ei; apply isclose_refl|].
    intros k Hk Hne. destruct (isclose (nth k (g_lon g) 0) c) eqn:Ec; auto. apply isclose_true in Ec.
    exfalso. assert (Hn : nth k (g_lon g) 0 <> c).
    { rewrite <- Ei. intros Heq. apply Hne. eapply si_inj; eauto. now apply lon_increasing. }
    specialize (Hu (nth k (g_lon g) 0) (nth_In _ _ Hk) Hn). lra. }
  change (region_getitem g (IdxOne (SelNum c))) with
    (region_getitem g (IdxTuple [SelNum c; SelSlice BNone BNone false])).
  rewrite region_getitem_tuple by auto. unfold get_lon_indices, pick_single. rewrite E. simpl.
  eexists. split; [reflexivity|]. unfold region_lon, take_idx. simpl. now rewrite Ei.
Qed.

Section WithRegion.
Variables (arg : index_arg) (rg : region).
Hypothesis Hrg : region_getitem g arg = Ok rg.

Lemma lon_mono_lemma : exists m, region_lon_mono rg = Ok m /\ strictly_increasing m
    /\ length m = length (region_lon rg)
    /\ (forall i, (i < length m)%nat ->
          nth i m 0 = nth i (region_lon rg) 0 \/ nth i m 0 = nth i (region_lon rg) 0 - 360)
    /\ (forall x y, In x m -> In y m -> y - x < 360)
    /\ (strictly_increasing (region_lon rg) -> m = region_lon rg).
Proof. apply (lon_mono_facts g). eapply region_facts_of; eauto. Qed.

Lemma extract_field_lemma m : shaped (g_nlat g) (g_nlon g) m ->
  exists m', extract rg [A2 m] = Ok (ExOne (A2 m'))
    /\ shaped (fst (region_shape rg)) (snd (region_shape rg)) m'
    /\ length (region_lat rg) = fst (region_shape rg) /\ length (region_lon rg) = snd (region_shape rg)
    /\ (forall y, In y (region_lat rg) -> In y (g_lat g)) /\ (forall x, In x (region_lon rg) -> In x (g_lon g))
    /\ forall i j i' j', (i < fst (region_shape rg))%nat -> (j < snd (region_shape rg))%nat ->
         (i' < g_nlat g)%nat -> (j' < g_nlon g)%nat ->
         nth i' (g_lat g) 0 = nth i (region_lat rg) 0 -> nth j' (g_lon g) 0 = nth j (region_lon rg) 0 ->
         mget m' i j = mget m i' j'.
Proof.
  intros Hm. destruct (extract_2d_lemma _ _ _ _ _ Hg arg rg Hrg m Hm) as [m' [H1 [H2 [H3 [H4 H5]]]]].
  pose proof (region_facts_of g arg rg N1 N0 Hrg) as RF.
  exists m'. repeat (split; [assumption|]). split; [|split; [|assumption]].
  - intros y Hy. unfold region_lat, take_idx in Hy. rewrite (rf_grid _ _ RF) in Hy. apply in_map_iff in Hy.
    destruct Hy as [i [<- Hi]]. apply nth_In. rewrite lat_length. now apply (rf_lat_lt _ _ RF).
  - intros y Hy. unfold region_lon, take_idx in Hy. rewrite (rf_grid _ _ RF) in Hy. apply in_map_iff in Hy.
    destruct Hy as [i [<- Hi]]. apply nth_In. rewrite lon_length. now apply (rf_lon_lt _ _ RF).
Qed.

Lemma extract_profiles_lemma v :
  (length v = g_nlat g ->
    exists v', extract rg [A1 v] = Ok (ExOne (A1 v')) /\ length v' = fst (region_shape rg)
    /\ forall i i', (i < length v')%nat -> (i' < g_nlat g)%nat ->
         nth i' (g_lat g) 0 = nth i (region_lat rg) 0 -> nth i v' 0 = nth i' v 0)
  /\ (length v = g_nlon g ->
    exists v', extract rg [A1 v] = Ok (ExOne (A1 v')) /\ length v' = snd (region_shape rg)
    /\ forall j j', (j < length v')%nat -> (j' < g_nlon g)%nat ->
         nth j' (g_lon g) 0 = nth j (region_lon rg) 0 -> nth j v' 0 = nth j' v 0)
  /\ g_nlat g <> g_nlon g.
Proof.
  split; [|split].
  - intros. eapply extract_lat_profile; eauto.
  - intros. eapply extract_lon_profile; eauto.
  - pose proof (nlat_lt_nlon _ _ _ _ _ Hg). lia.
Qed.

Lemma mask_lemma : shaped (g_nlat g) (g_nlon g) (region_mask rg)
  /\ (forall i j, (i < g_nlat g)%nat -> (j < g_nlon g)%nat ->
       (nth j (nth i (region_mask rg) []) false = true
        <-> In (nth i (g_lat g) 0) (region_lat rg) /\ In (nth j (g_lon g) 0) (region_lon rg)))
  /\ count_true (region_mask rg) = (fst (region_shape rg) * snd (region_shape rg))%nat.
Proof.
  split; [eapply mask_shaped; eauto|]. split; [intros; eapply mask_spec; eauto|eapply mask_count; eauto].
Qed.
Lemma extract_errors_lemma : extract rg [] = Err ValueError
  /\ forall f,
     match f with
     | A1 v => length v <> g_nlat g /\ length v <> g_nlon g
     | A2 m => ~ shaped (g_nlat g) (g_nlon g) m
     | AOther => True
     end -> extract rg [f] = Err ValueError.
Proof. split; [reflexivity|]. intros f H. eapply extract_error; eauto. Qed.
End WithRegion.
End Accepted.

Lemma repr_nonempty : forall rg, region_lat rg <> [] -> region_lon rg <> [] ->
  exists r, grid_region_repr rg = Ok r.
Proof.
  intros rg H1 H2. unfold grid_region_repr.
  destruct (region_lat rg); [easy|]. destruct (region_lon rg); [easy|]. eauto.
Qed.

Lemma lon_mono_example : region_lon_mono regionP = Ok [270 - 360; 0].
Proof.
  unfold region_lon_mono, region_lon. simpl rg_grid. rewrite gridA_lon. simpl. rdec. reflexivity.
Qed.
Lemma single_example : exists rg, region_getitem (gridA 1) (IdxOne (SelNum 90)) = Ok rg
  /\ region_lon rg = [90].
Proof.
  apply (single_found _ _ _ _ _ (gridA_ok 1 ltac:(lra))); rewrite gridA_lon.
  - simpl; tauto.
  - intros c' Hc Hn. rewrite (Rabs_right 90) by lra.
    destruct Hc as [<-|[<-|[<-|[<-|[]]]]]; try lra;
      [rewrite Rabs_left by lra|rewrite Rabs_right by lra|rewrite Rabs_right by lra]; lra.
Qed.
