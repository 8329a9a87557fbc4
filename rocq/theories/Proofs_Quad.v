(** Lemmas on quadrature, equivalent latitude and zonalization. *)
From Coq Require Import Lia Lra.
From Verif Require Import Base Model_Grid Model_Region Model_Quad Spec_Grid Spec_Region Spec_Quad
  Proofs_Base Proofs_Grid Proofs_Region.
From Coquelicot Require Import Coquelicot.

Lemma is_RInt_ChaslesR (f : R -> R) a b c l1 l2 :
  is_RInt f a b l1 -> is_RInt f b c l2 -> is_RInt f a c (l1 + l2).
Proof. exact (is_RInt_Chasles f a b c l1 l2). Qed.

(** ** One interval *)
Lemma is_RInt_lin_cos r a b u v :
  is_RInt (fun t => r * (a * t + b) * cos t) u v
    (r * ((a * cos v + (a * v + b) * sin v) - (a * cos u + (a * u + b) * sin u))).
Proof.
  replace (r * ((a * cos v + (a * v + b) * sin v) - (a * cos u + (a * u + b) * sin u)))
    with (minus (r * (a * cos v + (a * v + b) * sin v)) (r * (a * cos u + (a * u + b) * sin u)))
    by (unfold minus, plus, opp; simpl; ring).
  apply (is_RInt_derive (fun t => r * (a * cos t + (a * t + b) * sin t))).
  - intros x _. auto_derive; [trivial|]. ring.
  - intros x _. apply (ex_derive_continuous (fun t => r * (a * t + b) * cos t)).
    auto_derive; trivial.
Qed.

Lemma is_RInt_zero u v : is_RInt (fun _ : R => 0) u v 0.
Proof.
  assert (H := @is_RInt_const R_NormedModule u v 0).
  assert (E : scal (v - u) (0 : R_NormedModule) = 0) by (unfold scal; simpl; unfold mult; simpl; ring).
  rewrite E in H. exact H.
Qed.

Section Segment.
Variables (rs xl yl zl xr yr zr : R) (Y Z : R -> R).
Hypothesis Hx : xr < xl.
Hypothesis HY : forall t, xr <= t <= xl -> Y t = yl + (yr - yl) * (t - xl) / (xr - xl).
Hypothesis HZ : forall t, xr <= t <= xl -> Z t = zl + (zr - zl) * (t - xl) / (xr - xl).

Let aa := (yr - yl) / (xr - xl).
Let bb := yl - aa * xl.

Lemma Y_line t : xr <= t <= xl -> Y t = aa * t + bb.
Proof. intros H. rewrite HY by auto. unfold bb, aa. field. lra. Qed.

Lemma seg_pos u v : xr <= u -> u <= v -> v <= xl -> (forall t, u < t < v -> 0 <= Z t) ->
  is_RInt (masked rs Y Z) u v
    (rs * (aa * (cos v - cos u) + (aa * v + bb) * sin v - (aa * u + bb) * sin u)).
Proof.
  intros H1 H2 H3 Hp.
  replace (rs * (aa * (cos v - cos u) + (aa * v + bb) * sin v - (aa * u + bb) * sin u))
    with (rs * ((aa * cos v + (aa * v + bb) * sin v) - (aa * cos u + (aa * u + bb) * sin u))) by ring.
  apply is_RInt_ext with (f := fun t => rs * (aa * t + bb) * cos t); [|apply is_RInt_lin_cos].
  intros x Hx'. rewrite Rmin_left, Rmax_right in Hx' by auto. unfold masked.
  destruct (Rle_dec 0 (Z x)) as [_|Hn]; [rewrite Y_line by lra; reflexivity|].
  elim Hn. apply Hp. lra.
Qed.
Lemma seg_neg u v : u <= v -> (forall t, u < t < v -> Z t < 0) ->
  is_RInt (masked rs Y Z) u v 0.
Proof.
  intros H2 Hp. apply is_RInt_ext with (f := fun _ => 0); [|apply is_RInt_zero].
  intros x Hx'. rewrite Rmin_left, Rmax_right in Hx' by auto. unfold masked.
  destruct (Rle_dec 0 (Z x)) as [H|_]; [|reflexivity]. specialize (Hp x Hx'). lra.
Qed.

Lemma Z_conv t : xr <= t <= xl -> Z t = ((t - xr) * zl + (xl - t) * zr) / (xl - xr).
Proof. intros H. rewrite HZ by auto. field. lra. Qed.

Lemma frac_nonneg a b : 0 <= a -> 0 < b -> 0 <= a / b.
Proof. intros. apply Rmult_le_pos; [lra|]. left. now apply Rinv_0_lt_compat. Qed.
Lemma frac_neg a b : a < 0 -> 0 < b -> a / b < 0.
Proof. intros. assert (0 < / b) by now apply Rinv_0_lt_compat. unfold Rdiv. nra. Qed.

Lemma seg_is_RInt : is_RInt (masked rs Y Z) xr xl (seg_trapz rs (xl, (yl, zl)) (xr, (yr, zr))).
Proof.
  unfold seg_trapz. cbn [fst snd]. fold aa. fold bb.
  destruct (Rleb 0 zl) eqn:El; destruct (Rleb 0 zr) eqn:Er; cbn [negb andb orb];
    rewrite ?Rleb_true, ?Rleb_false in *.
  - apply seg_pos; try lra. intros t Ht. rewrite Z_conv by lra. apply frac_nonneg; nra.
  - (* positive north, negative south *)
    set (xe := xr - zr / (zr - zl) * (xr - xl)).
    assert (E0 : zr - zl < 0) by lra.
    assert (Ex : xe = (zl * xr - zr * xl) / (zl - zr)) by (unfold xe; field; lra).
    assert (B1 : xr <= xe).
    { rewrite Ex. apply Rmult_le_reg_r with (zl - zr); [lra|]. unfold Rdiv. rewrite Rmult_assoc, Rinv_l by lra. nra. }
    assert (B2 : xe <= xl).
    { rewrite Ex. apply Rmult_le_reg_r with (zl - zr); [lra|]. unfold Rdiv. rewrite Rmult_assoc, Rinv_l by lra. nra. }
    assert (Eq : (zl - zr) * xe = zl * xr - zr * xl) by (rewrite Ex; field; lra).
    replace (rs * _) with (0 + (rs * (aa * (cos xl - cos xe) + (aa * xl + bb) * sin xl - (aa * xe + bb) * sin xe)))
      by ring.
    apply is_RInt_ChaslesR with xe.
    + apply seg_neg; auto. intros t Ht. rewrite Z_conv by lra. apply frac_neg; nra.
    + apply seg_pos; auto; try lra. intros t Ht. rewrite Z_conv by lra. apply frac_nonneg; nra.
  - set (xs := xl - zl / (zr - zl) * (xr - xl)).
    assert (E0 : 0 < zr - zl) by lra.
    assert (Ex : xs = (zr * xl - zl * xr) / (zr - zl)) by (unfold xs; field; lra).
    assert (B1 : xr <= xs).
    { rewrite Ex. apply Rmult_le_reg_r with (zr - zl); [lra|]. unfold Rdiv. rewrite Rmult_assoc, Rinv_l by lra. nra. }
    assert (B2 : xs <= xl).
    { rewrite Ex. apply Rmult_le_reg_r with (zr - zl); [lra|]. unfold Rdiv. rewrite Rmult_assoc, Rinv_l by lra. nra. }
    assert (Eq : (zr - zl) * xs = zr * xl - zl * xr) by (rewrite Ex; field; lra).
    replace (rs * _) with ((rs * (aa * (cos xs - cos xr) + (aa * xs + bb) * sin xs - (aa * xr + bb) * sin xr)) + 0)
      by ring.
    apply is_RInt_ChaslesR with xs.
    + apply seg_pos; auto; try lra. intros t Ht. rewrite Z_conv by lra. apply frac_nonneg; nra.
    + apply seg_neg; auto. intros t Ht. rewrite Z_conv by lra. apply frac_neg; nra.
  - apply seg_neg; [lra|]. intros t Ht. rewrite Z_conv by lra. apply frac_neg; nra.
Qed.
End Segment.

(** ** One meridian *)
Lemma pl_tail x0 x y0 y F : pl_interpolant (x0 :: x) (y0 :: y) F -> pl_interpolant x y F.
Proof. intros H i Hi. apply (H (S i)). simpl. lia. Qed.

Lemma col_is_RInt rs x : forall y z Y Z, length y = length x -> length z = length x ->
  x <> [] -> strictly_decreasing x -> pl_interpolant x y Y -> pl_interpolant x z Z ->
  is_RInt (masked rs Y Z) (last x 0) (hd 0 x) (col_trapz rs x y z).
Proof.
  induction x as [|x0 [|x1 x] IH]; intros [|y0 y] [|z0 z] Y Z Ly Lz Hne Hd HY HZ; simpl in Ly, Lz; try easy.
  - destruct y, z; try easy. apply (@is_RInt_point R_NormedModule).
  - destruct y as [|y1 y]; [easy|]. destruct z as [|z1 z]; [easy|].
    assert (Hlt : x1 < x0) by (apply (Hd 0%nat 1%nat); simpl; lia).
    assert (IH' := IH (y1 :: y) (z1 :: z) Y Z ltac:(simpl in *; lia) ltac:(simpl in *; lia) ltac:(easy)
      (fun i j a b => Hd (S i) (S j) ltac:(lia) ltac:(simpl in *; lia)) (pl_tail _ _ _ _ _ HY) (pl_tail _ _ _ _ _ HZ)).
    change (last (x0 :: x1 :: x) 0) with (last (x1 :: x) 0). cbn [hd] in *.
    change (col_trapz rs (x0 :: x1 :: x) (y0 :: y1 :: y) (z0 :: z1 :: z)) with
      (seg_trapz rs (x0, (y0, z0)) (x1, (y1, z1)) + col_trapz rs (x1 :: x) (y1 :: y) (z1 :: z)).
    rewrite Rplus_comm. apply is_RInt_ChaslesR with x1; [exact IH'|].
    apply seg_is_RInt; auto.
    + intros t Ht. apply (HY 0%nat); [simpl; lia|exact Ht].
    + intros t Ht. apply (HZ 0%nat); [simpl; lia|exact Ht].
Qed.

(** existence of interpolants *)
Fixpoint pl_fun (x y : list R) (t : R) : R :=
  match x, y with
  | x0 :: ((x1 :: _) as xt), y0 :: ((y1 :: _) as yt) =>
      if Rle_dec x1 t then y0 + (y1 - y0) * (t - x0) / (x1 - x0) else pl_fun xt yt t
  | _, _ => 0
  end.
Lemma pl_exists x : forall y, length y = length x -> strictly_decreasing x ->
  pl_interpolant x y (pl_fun x y).
Proof.
  induction x as [|x0 [|x1 x] IH]; intros [|y0 y] Ly Hd i Hi t Ht; simpl in Ly, Hi; try lia.
  destruct y as [|y1 y]; [simpl in Ly; lia|]. 
  assert (IH' := IH (y1 :: y) ltac:(simpl in *; lia)
    (fun i j a b => Hd (S i) (S j) ltac:(lia) ltac:(simpl in *; lia))).
  change (pl_fun (x0 :: x1 :: x) (y0 :: y1 :: y) t) with
    (if Rle_dec x1 t then y0 + (y1 - y0) * (t - x0) / (x1 - x0) else pl_fun (x1 :: x) (y1 :: y) t).
  assert (D : forall k, (S k < length (x1 :: x))%nat -> nth (S k) (x1 :: x) 0 < nth k (x1 :: x) 0).
  { intros k Hk. apply (Hd (S k) (S (S k))); simpl in *; lia. }
  assert (D0 : x1 < x0) by (apply (Hd 0%nat 1%nat); simpl; lia).
  destruct i as [|i]; cbn [nth] in Ht |- *.
  - destruct (Rle_dec x1 t); [reflexivity|lra].
  - destruct (Rle_dec x1 t) as [Hx|Hx].
    + (* t = x1 and i = 0 *)
      assert (Hle : nth i (x1 :: x) 0 <= x1).
      { destruct i as [|i]; [simpl; lra|].
        pose proof (Hd 1%nat (S (S i)) ltac:(lia) ltac:(simpl; lia)) as K. cbn [nth] in K |- *. lra. }
      assert (Et : t = x1) by (cbn [nth] in *; lra).
      assert (Ei : i = 0%nat).
      { destruct i as [|i]; auto. exfalso.
        pose proof (Hd 1%nat (S (S i)) ltac:(lia) ltac:(simpl; lia)) as K. cbn [nth] in *. lra. }
      subst i t. cbn [nth]. destruct x as [|x2 x]; [simpl in Hi; lia|].
      pose proof (D 0%nat ltac:(simpl; lia)) as D1. cbn [nth] in D1 |- *. field. lra.
    + apply (IH' i); [simpl; lia|exact Ht].
Qed.

Lemma phi_decreasing g : (1 < g_nlat g)%nat -> strictly_decreasing (g_phi g).
Proof.
  intros Hn i j Hij Hj. unfold g_phi in *. rewrite map_length in Hj.
  rewrite !(nth_map_lt _ _ _ 0) by lia. apply (proj1 (deg2rad_lt _ _)).
  now apply lat_decreasing.
Qed.

(** ** Columns as functions of the row index *)
Definition sg (rs : R) (X Y Z : nat -> R) (i : nat) : R :=
  seg_trapz rs (X i, (Y i, Z i)) (X (S i), (Y (S i), Z (S i))).
Lemma combine_tab {A B} n (f : nat -> A) (h : nat -> B) :
  combine (tab n f) (tab n h) = tab n (fun i => (f i, h i)).
Proof.
  revert f h; induction n as [|n IH]; intros; [reflexivity|]. rewrite !tab_S. simpl. now rewrite IH.
Qed.
Lemma col_trapz_tab rs n X Y Z : col_trapz rs (tab (S n) X) (tab (S n) Y) (tab (S n) Z)
  = Rsum (tab n (sg rs X Y Z)).
Proof. unfold col_trapz. rewrite !combine_tab, pairs_tab, tab_map. reflexivity. Qed.

Definition known_method (m : string) : Prop := m = "boxcount"%string \/ m = "sptrapz"%string.

Definition cq (g : grid) (m : string) (Y Z : nat -> R) : R :=
  if is_boxcount m then
    Rsum (tab (g_nlat g) (fun i => if Rleb 0 (Z i) then nth i (gridpoint_area g) 0 * Y i else 0))
    / g_rsphere g / g_dlam g
  else Rsum (tab (g_nlat g - 1) (sg (g_rsphere g) (fun i => nth i (g_phi g) 0) Y Z)).

Lemma mcol_tab nr nc (m : mat) j : shaped nr nc m -> mcol m j = tab nr (fun i => mget m i j).
Proof.
  intros [HL _]. apply (list_eq_nth 0).
  - now rewrite mcol_length, tab_length.
  - intros i Hi. rewrite mcol_length in Hi. rewrite mcol_nth, tab_nth by lia. reflexivity.
Qed.

Lemma phi_tab g : g_phi g = tab (g_nlat g) (fun i => nth i (g_phi g) 0).
Proof.
  apply (list_eq_nth 0); [now rewrite phi_length, tab_length|].
  intros i Hi. rewrite phi_length in Hi. now rewrite tab_nth.
Qed.
Lemma gpa_tab g : gridpoint_area g = tab (g_nlat g) (fun i => nth i (gridpoint_area g) 0).
Proof.
  apply (list_eq_nth 0); [unfold gridpoint_area; now rewrite !tab_length|].
  intros i Hi. unfold gridpoint_area in Hi. rewrite tab_length in Hi. now rewrite (tab_nth (g_nlat g) (fun i => nth i _ 0)).
Qed.

Lemma quad_meridional_form g m nc y z : known_method m -> (0 < g_nlat g)%nat -> (nc <= g_nlon g)%nat ->
  shaped (g_nlat g) nc y -> shaped (g_nlat g) nc z ->
  quad_meridional g (A2 y) (Some z) m
  = Ok (tab nc (fun j => cq g m (fun i => mget y i j) (fun i => mget z i j))).
Proof.
  intros Hm Hn Hc Hy Hz. unfold quad_meridional, passert.
  replace (Nat.eqb (length y) (g_nlat g)) with true by (symmetry; apply Nat.eqb_eq; apply Hy).
  cbv zeta. rewrite (shaped_ncols (g_nlat g) nc) by auto.
  replace (shapedb (g_nlat g) nc z) with true by (symmetry; now apply shapedb_spec).
  destruct Hm as [->| ->]; cbn [is_boxcount is_sptrapz String.eqb Ascii.eqb Bool.eqb].
  - f_equal. apply tab_ext. intros j Hj. unfold col_box, cq.
    rewrite (mcol_tab (g_nlat g) nc y), (mcol_tab (g_nlat g) nc z) by auto.
    rewrite combine_tab. rewrite (gpa_tab g) at 1. rewrite map2_tab. reflexivity.
  - replace (Nat.leb nc (g_nlon g)) with true by (symmetry; now apply Nat.leb_le). simpl andb. cbv iota.
    f_equal. apply tab_ext. intros j Hj. unfold cq.
    rewrite (mcol_tab (g_nlat g) nc y), (mcol_tab (g_nlat g) nc z) by auto.
    rewrite (phi_tab g) at 1. destruct (g_nlat g) as [|n]; [lia|]. rewrite col_trapz_tab.
    simpl. now rewrite Nat.sub_0_r.
Qed.

Lemma quad_meridional_none g m nc y : known_method m -> (0 < g_nlat g)%nat -> (nc <= g_nlon g)%nat ->
  shaped (g_nlat g) nc y ->
  quad_meridional g (A2 y) None m = quad_meridional g (A2 y) (Some (mat_of (g_nlat g) nc (fun _ _ => 1))) m.
Proof.
  intros Hm Hn Hc Hy. unfold quad_meridional.
  rewrite (shaped_ncols (g_nlat g) nc) by auto. reflexivity.
Qed.

Lemma cq_ext g m Y Z Y' Z' : (forall i, (i < g_nlat g)%nat -> Y i = Y' i) ->
  (forall i, (i < g_nlat g)%nat -> Z i = Z' i) -> cq g m Y Z = cq g m Y' Z'.
Proof.
  intros HY HZ. unfold cq. destruct (is_boxcount m).
  - do 3 f_equal. apply tab_ext. intros i Hi. now rewrite HY, HZ.
  - f_equal. apply tab_ext. intros i Hi. unfold sg. rewrite !HY, !HZ by lia. reflexivity.
Qed.

Lemma cq_linear g m Y1 Y2 Z a b :
  cq g m (fun i => a * Y1 i + b * Y2 i) Z = a * cq g m Y1 Z + b * cq g m Y2 Z.
Proof.
  unfold cq. destruct (is_boxcount m).
  - unfold Rdiv. rewrite <- !Rmult_assoc, <- Rsum_tab_scal, <- Rsum_tab_scal.
    rewrite <- !Rmult_plus_distr_r, <- Rsum_tab_plus. do 3 f_equal. apply tab_ext. intros i _.
    destruct (Rleb 0 (Z i)); ring.
  - rewrite <- !Rsum_tab_scal, <- Rsum_tab_plus. f_equal. apply tab_ext. intros i _.
    unfold sg, seg_trapz. cbn [fst snd].
    destruct (Rleb 0 (Z i)), (Rleb 0 (Z (S i))); cbn [negb andb orb]; unfold Rdiv; ring.
Qed.

Section Grid.
Variables (res rs om : R) (nt : option Z) (g : grid).
Hypothesis Hg : mk_grid res rs om nt = Ok g.
Let F := mk_grid_facts _ _ _ _ _ Hg.
Let n := g_nlat g.

Lemma rs_pos : 0 < g_rsphere g.
Proof. rewrite (gf_rs _ _ _ _ F). exact (gf_rs_pos _ _ _ _ F). Qed.
Lemma dlam_gpos : 0 < g_dlam g.
Proof. eapply dlam_pos; eauto. Qed.
Lemma nlat_pos : (0 < g_nlat g)%nat.
Proof. pose proof (gf_nlat3 _ _ _ _ F). lia. Qed.
Lemma nlat_gt1' : (1 < g_nlat g)%nat.
Proof. pose proof (gf_nlat3 _ _ _ _ F). lia. Qed.

Lemma phi_first : hd 0 (g_phi g) = PI / 2.
Proof.
  pose proof nlat_pos. pose proof nlat_gt1'.
  replace (hd 0 (g_phi g)) with (nth 0 (g_phi g) 0) by (destruct (g_phi g); reflexivity).
  rewrite phi_nth, lat_nth by lia.
  replace (90 + _) with 90 by (simpl; field; apply not_0_INR; lia). apply deg2rad_90.
Qed.
Lemma last_nth' {A} (l : list A) d : last l d = nth (length l - 1) l d.
Proof.
  induction l as [|a [|b l] IH]; auto. change (last (a :: b :: l) d) with (last (b :: l) d).
  rewrite IH. simpl. now rewrite Nat.sub_0_r.
Qed.
Lemma phi_last : last (g_phi g) 0 = - (PI / 2).
Proof.
  pose proof nlat_pos. pose proof nlat_gt1'. rewrite last_nth', phi_length, phi_nth, lat_nth by lia.
  replace (90 + _) with (-90) by (field; apply not_0_INR; lia). apply deg2rad_m90.
Qed.

Lemma phi_range i : (i < g_nlat g)%nat -> - (PI / 2) <= nth i (g_phi g) 0 <= PI / 2.
Proof.
  intros Hi. rewrite phi_nth by auto.
  assert (Hin : In (nth i (g_lat g) 0) (g_lat g)) by (apply nth_In; now rewrite lat_length).
  apply lat_bounds in Hin. rewrite <- deg2rad_m90, <- deg2rad_90.
  split; apply (proj1 (deg2rad_le _ _)); lra.
Qed.

(** value as an integral *)
Lemma cq_is_RInt Y Z FY FZ : pl_interpolant (g_phi g) (tab n Y) FY -> pl_interpolant (g_phi g) (tab n Z) FZ ->
  is_RInt (masked rs FY FZ) (- (PI / 2)) (PI / 2) (cq g "sptrapz" Y Z).
Proof.
  intros HY HZ. pose proof nlat_gt1' as N1.
  rewrite <- phi_last, <- phi_first.
  replace (cq g "sptrapz" Y Z) with (col_trapz (g_rsphere g) (g_phi g) (tab n Y) (tab n Z)).
  - rewrite (gf_rs _ _ _ _ F). apply col_is_RInt; rewrite ?tab_length, ?phi_length; auto.
    + intros H. apply (f_equal (@length R)) in H. rewrite phi_length in H. simpl in H. lia.
    + now apply phi_decreasing.
  - unfold cq. simpl. rewrite (phi_tab g) at 1. unfold n. destruct (g_nlat g) as [|k]; [lia|].
    rewrite col_trapz_tab. simpl. now rewrite Nat.sub_0_r.
Qed.

Lemma interpolant_exists Y : exists FY, pl_interpolant (g_phi g) (tab n Y) FY.
Proof.
  exists (pl_fun (g_phi g) (tab n Y)). apply pl_exists.
  - now rewrite tab_length, phi_length.
  - apply phi_decreasing, nlat_gt1'.
Qed.

Lemma cover t : forall l, (2 <= length l)%nat -> strictly_decreasing l -> last l 0 <= t <= hd 0 l ->
  exists i, (S i < length l)%nat /\ nth (S i) l 0 <= t <= nth i l 0.
Proof.
  intros l; induction l as [|x0 [|x1 l] IH]; intros HL Hd [H1 H2]; simpl in HL; try lia.
  destruct (Rle_dec x1 t).
  - exists 0%nat. simpl in *. split; [lia|lra].
  - destruct l as [|x2 l].
    { simpl in H1. lra. }
    destruct IH as [i [Hi Ht]]; [simpl; lia| | |].
    + intros i j a b. apply (Hd (S i) (S j)); simpl in *; lia.
    + split; [exact H1|]. simpl. lra.
    + exists (S i). split; [simpl in *; lia|exact Ht].
Qed.
Lemma phi_cover t : - (PI / 2) <= t <= PI / 2 ->
  exists i, (S i < g_nlat g)%nat /\ nth (S i) (g_phi g) 0 <= t <= nth i (g_phi g) 0.
Proof.
  pose proof nlat_gt1'. intros Ht. rewrite <- phi_last, <- phi_first in Ht.
  destruct (cover t (g_phi g)) as [i [Hi H']]; auto.
  - rewrite phi_length. lia.
  - now apply phi_decreasing.
  - rewrite phi_length in Hi. eauto.
Qed.
Lemma phi_step i : (S i < g_nlat g)%nat -> nth (S i) (g_phi g) 0 < nth i (g_phi g) 0.
Proof. intros. apply (phi_decreasing g nlat_gt1' i (S i)); [lia|]. now rewrite phi_length. Qed.

Lemma pl_value Y FY t i : pl_interpolant (g_phi g) (tab n Y) FY -> (S i < g_nlat g)%nat ->
  nth (S i) (g_phi g) 0 <= t <= nth i (g_phi g) 0 ->
  let xl := nth i (g_phi g) 0 in let xr := nth (S i) (g_phi g) 0 in
  FY t = ((t - xr) * Y i + (xl - t) * Y (S i)) / (xl - xr).
Proof.
  intros H Hi Ht. cbv zeta. pose proof (phi_step i Hi).
  rewrite (H i) by (rewrite ?phi_length; auto). unfold n. rewrite !tab_nth by lia. field. lra.
Qed.

Lemma pl_mono Y1 Y2 F1 F2 t : pl_interpolant (g_phi g) (tab n Y1) F1 -> pl_interpolant (g_phi g) (tab n Y2) F2 ->
  (forall i, (i < g_nlat g)%nat -> Y1 i <= Y2 i) -> - (PI / 2) <= t <= PI / 2 -> F1 t <= F2 t.
Proof.
  intros H1 H2 H Ht. destruct (phi_cover t Ht) as [i [Hi Hs]]. pose proof (phi_step i Hi).
  rewrite (pl_value Y1 F1 t i), (pl_value Y2 F2 t i) by auto.
  pose proof (H i ltac:(lia)). pose proof (H (S i) ltac:(lia)).
  apply Rmult_le_compat_r; [left; apply Rinv_0_lt_compat; lra|]. nra.
Qed.
Lemma pl_nonneg Y FY t : pl_interpolant (g_phi g) (tab n Y) FY ->
  (forall i, (i < g_nlat g)%nat -> 0 <= Y i) -> - (PI / 2) <= t <= PI / 2 -> 0 <= FY t.
Proof.
  intros H1 H Ht. destruct (phi_cover t Ht) as [i [Hi Hs]]. pose proof (phi_step i Hi).
  rewrite (pl_value Y FY t i) by auto.
  pose proof (H i ltac:(lia)). pose proof (H (S i) ltac:(lia)).
  apply frac_nonneg; [nra|lra].
Qed.

Lemma cq_mono_y m Y1 Y2 Z : known_method m -> (forall i, (i < g_nlat g)%nat -> Y1 i <= Y2 i) ->
  cq g m Y1 Z <= cq g m Y2 Z.
Proof.
  intros Hm H. pose proof rs_pos as Hr. pose proof dlam_gpos as Hd. destruct Hm as [->| ->].
  - unfold cq. simpl. apply Rmult_le_compat_r; [left; now apply Rinv_0_lt_compat|].
    apply Rmult_le_compat_r; [left; now apply Rinv_0_lt_compat|].
    unfold tab. apply Rsum_le. intros i Hi. apply in_seq in Hi.
    destruct (Rleb 0 (Z i)); [|lra]. apply Rmult_le_compat_l; [|apply H; lia].
    left. eapply gpa_pos; eauto. lia.
  - destruct (interpolant_exists Y1) as [F1 I1]. destruct (interpolant_exists Y2) as [F2 I2].
    destruct (interpolant_exists Z) as [FZ IZ].
    eapply is_RInt_le; [|eapply (cq_is_RInt Y1 Z); eauto|eapply (cq_is_RInt Y2 Z); eauto|].
    + pose proof PI_RGT_0. lra.
    + intros x Hx. unfold masked. destruct (Rle_dec 0 (FZ x)); [|lra].
      assert (0 < cos x) by (apply cos_gt_0; lra).
      pose proof (pl_mono Y1 Y2 F1 F2 x I1 I2 H ltac:(lra)).
      rewrite (gf_rs _ _ _ _ F) in Hr. apply Rmult_le_compat_r; [lra|]. apply Rmult_le_compat_l; lra.
Qed.

Lemma cq_mono_z m Y Z1 Z2 : known_method m -> (forall i, (i < g_nlat g)%nat -> 0 <= Y i) ->
  (forall i, (i < g_nlat g)%nat -> Z1 i <= Z2 i) ->
  cq g m Y Z1 <= cq g m Y Z2.
Proof.
  intros Hm HY H. pose proof rs_pos as Hr. pose proof dlam_gpos as Hd. destruct Hm as [->| ->].
  - unfold cq. simpl. apply Rmult_le_compat_r; [left; now apply Rinv_0_lt_compat|].
    apply Rmult_le_compat_r; [left; now apply Rinv_0_lt_compat|].
    unfold tab. apply Rsum_le. intros i Hi. apply in_seq in Hi.
    assert (0 <= nth i (gridpoint_area g) 0 * Y i).
    { apply Rmult_le_pos; [|apply HY; lia]. left. eapply gpa_pos; eauto. lia. }
    specialize (H i ltac:(lia)).
    destruct (Rleb 0 (Z1 i)) eqn:E1, (Rleb 0 (Z2 i)) eqn:E2; rewrite ?Rleb_true, ?Rleb_false in *; lra.
  - destruct (interpolant_exists Y) as [FY IY]. destruct (interpolant_exists Z1) as [F1 I1].
    destruct (interpolant_exists Z2) as [F2 I2].
    eapply is_RInt_le; [|eapply (cq_is_RInt Y Z1); eauto|eapply (cq_is_RInt Y Z2); eauto|].
    + pose proof PI_RGT_0. lra.
    + intros x Hx. unfold masked.
      pose proof (pl_mono Z1 Z2 F1 F2 x I1 I2 H ltac:(lra)).
      assert (0 < cos x) by (apply cos_gt_0; lra).
      pose proof (pl_nonneg Y FY x IY HY ltac:(lra)).
      rewrite (gf_rs _ _ _ _ F) in Hr.
      assert (0 <= rs * FY x * cos x) by (apply Rmult_le_pos; [apply Rmult_le_pos|]; lra).
      destruct (Rle_dec 0 (F1 x)), (Rle_dec 0 (F2 x)); lra.
Qed.

Lemma cq_split m Y Z : known_method m -> (forall i, (i < g_nlat g)%nat -> Z i <> 0) ->
  cq g m Y Z + cq g m Y (fun i => - Z i) = cq g m Y (fun _ => 1).
Proof.
  intros Hm H. assert (E1 : Rleb 0 1 = true) by (apply Rleb_true; lra).
  assert (En : forall i, (i < g_nlat g)%nat -> Rleb 0 (- Z i) = negb (Rleb 0 (Z i))).
  { intros i Hi. specialize (H i Hi). destruct (Rleb 0 (Z i)) eqn:E; simpl; rewrite ?Rleb_true, ?Rleb_false in *; lra. }
  destruct Hm as [->| ->]; unfold cq; simpl.
  - unfold Rdiv. rewrite <- !Rmult_plus_distr_r, <- Rsum_tab_plus. do 3 f_equal. apply tab_ext. intros i Hi.
    rewrite En, E1 by auto. destruct (Rleb 0 (Z i)); simpl; ring.
  - rewrite <- Rsum_tab_plus. f_equal. apply tab_ext. intros i Hi.
    pose proof (phi_step i ltac:(lia)) as Hs.
    unfold sg, seg_trapz. cbn [fst snd]. rewrite !En, E1 by lia. cbn [negb andb orb].
    pose proof (H i ltac:(lia)) as Hz. pose proof (H (S i) ltac:(lia)) as Hz'.
    set (zl := Z i) in *. set (zr := Z (S i)) in *. set (xl := nth i (g_phi g) 0) in *. set (xr := nth (S i) (g_phi g) 0) in *.
    destruct (Rleb 0 zl) eqn:El, (Rleb 0 zr) eqn:Er; cbn [negb andb orb]; rewrite ?Rleb_true, ?Rleb_false in *.
    + ring.
    + replace (xl - - zl / (- zr - - zl) * (xr - xl)) with (xr - zr / (zr - zl) * (xr - xl)) by (field; lra).
      set (c := xr - zr / (zr - zl) * (xr - xl)). ring.
    + replace (xr - - zr / (- zr - - zl) * (xr - xl)) with (xl - zl / (zr - zl) * (xr - xl)) by (field; lra).
      set (c := xl - zl / (zr - zl) * (xr - xl)). ring.
    + ring.
Qed.

Lemma cq_one m : known_method m -> cq g m (fun _ => 1) (fun _ => 1) = 2 * rs.
Proof.
  intros Hm. pose proof rs_pos as Hr. pose proof dlam_gpos as Hd.
  assert (E1 : Rleb 0 1 = true) by (apply Rleb_true; lra). rewrite (gf_rs _ _ _ _ F) in Hr.
  destruct Hm as [->| ->]; unfold cq; simpl.
  - replace (Rsum (tab (g_nlat g) _)) with (Rsum (gridpoint_area g)).
    + erewrite gpa_sum by eauto. rewrite (gf_rs _ _ _ _ F). field. split; lra.
    + rewrite (gpa_tab g) at 1. f_equal. apply tab_ext. intros i Hi. rewrite E1. ring.
  - assert (E : tab (g_nlat g - 1) (sg (g_rsphere g) (fun i => nth i (g_phi g) 0) (fun _ => 1) (fun _ => 1))
      = tab (g_nlat g - 1) (fun i => - (rs * sin (nth (S i) (g_phi g) 0)) - - (rs * sin (nth i (g_phi g) 0)))).
    { apply tab_ext. intros i Hi. unfold sg, seg_trapz. cbn [fst snd]. rewrite E1. cbn [negb andb orb].
      rewrite (gf_rs _ _ _ _ F). pose proof (phi_step i ltac:(lia)). field. lra. }
    rewrite E. rewrite (Rsum_telescope (g_nlat g - 1) (fun i => - (rs * sin (nth i (g_phi g) 0)))).
    pose proof phi_first as E1'. pose proof phi_last as E2.
    rewrite last_nth', phi_length in E2. rewrite E2.
    replace (nth 0 (g_phi g) 0) with (hd 0 (g_phi g)) by (destruct (g_phi g); reflexivity).
    rewrite E1', sin_neg, sin_PI2. ring.
Qed.
Lemma cq_bounds m Z : known_method m -> 0 <= cq g m (fun _ => 1) Z <= 2 * rs.
Proof.
  intros Hm. split.
  - replace 0 with (cq g m (fun _ => 0 * 1 + 0 * 1) Z) by (rewrite (cq_linear g m (fun _ => 1) (fun _ => 1)); ring).
    apply cq_mono_y; auto. intros; lra.
  - rewrite <- (cq_one m Hm).
    destruct (Rle_dec 0 0); [|lra].
    apply Rle_trans with (cq g m (fun _ => 1) (fun i => Rmax (Z i) 1)).
    + apply cq_mono_z; auto; intros; [lra|apply Rmax_l].
    + rewrite (cq_one m Hm). apply Req_le.
      rewrite <- (cq_one m Hm). destruct Hm as [->| ->]; unfold cq; simpl.
      * do 3 f_equal. apply tab_ext. intros i Hi.
        replace (Rleb 0 (Rmax (Z i) 1)) with (Rleb 0 1); auto.
        transitivity true; [|symmetry]; apply Rleb_true; [lra|]. pose proof (Rmax_r (Z i) 1). lra.
      * f_equal. apply tab_ext. intros i Hi. unfold sg, seg_trapz. cbn [fst snd].
        assert (E : forall k, Rleb 0 (Rmax (Z k) 1) = true).
        { intros k. apply Rleb_true. pose proof (Rmax_r (Z k) 1). lra. }
        rewrite !E. replace (Rleb 0 1) with true by (symmetry; apply Rleb_true; lra). reflexivity.
Qed.
End Grid.

(** ** Statements on accepted grids *)
Section Statements.
Variables (res rs om : R) (nt : option Z) (g : grid).
Hypothesis Hg : mk_grid res rs om nt = Ok g.
Let F := mk_grid_facts _ _ _ _ _ Hg.
Let N0 := nlat_pos _ _ _ _ _ Hg.
Let N1 := nlat_gt1' _ _ _ _ _ Hg.

Lemma mget_ones nc i j : (i < g_nlat g)%nat -> (j < nc)%nat -> mget (mat_of (g_nlat g) nc (fun _ _ => 1)) i j = 1.
Proof. intros. now rewrite mget_mat_of. Qed.

Lemma sptrapz_exact nc y z : (nc <= g_nlon g)%nat -> shaped (g_nlat g) nc y -> shaped (g_nlat g) nc z ->
  exists q, quad_meridional g (A2 y) (Some z) "sptrapz" = Ok q /\ length q = nc
    /\ forall j, (j < nc)%nat -> forall Y Z,
         pl_interpolant (g_phi g) (mcol y j) Y -> pl_interpolant (g_phi g) (mcol z j) Z ->
         is_RInt (masked rs Y Z) (- (PI / 2)) (PI / 2) (nth j q 0).
Proof.
  intros Hc Hy Hz. eexists. split; [apply quad_meridional_form with (nc := nc); auto; now right|].
  split; [apply tab_length|]. intros j Hj Y Z HY HZ. rewrite tab_nth by auto.
  rewrite (mcol_tab (g_nlat g) nc) in HY, HZ by auto. eapply cq_is_RInt; eauto.
Qed.

Lemma pl_ones Z : pl_interpolant (g_phi g) (tab (g_nlat g) (fun _ => 1)) Z ->
  forall t, - (PI / 2) <= t <= PI / 2 -> Z t = 1.
Proof.
  intros H t Ht. destruct (phi_cover _ _ _ _ _ Hg t Ht) as [i [Hi Hs]].
  pose proof (phi_step _ _ _ _ _ Hg i Hi). 
  erewrite (pl_value _ _ _ _ _ Hg (fun _ => 1)); eauto. field. lra.
Qed.

Lemma sptrapz_exact_everywhere nc y : (nc <= g_nlon g)%nat -> shaped (g_nlat g) nc y ->
  exists q, quad_meridional g (A2 y) None "sptrapz" = Ok q /\ length q = nc
    /\ forall j, (j < nc)%nat -> forall Y, pl_interpolant (g_phi g) (mcol y j) Y ->
         is_RInt (fun t => rs * Y t * cos t) (- (PI / 2)) (PI / 2) (nth j q 0).
Proof.
  intros Hc Hy. pose proof (shaped_mat_of (g_nlat g) nc (fun _ _ => 1)) as Hz.
  destruct (sptrapz_exact nc y _ Hc Hy Hz) as [q [E [L H]]].
  exists q. split; [rewrite (quad_meridional_none g "sptrapz" nc); auto; now right|].
  split; auto. intros j Hj Y HY.
  destruct (interpolant_exists _ _ _ _ _ Hg (fun _ => 1)) as [Z IZ].
  eapply is_RInt_ext; [|eapply (H j Hj Y Z); auto].
  - intros x Hx. rewrite Rmin_left, Rmax_right in Hx by (pose proof PI_RGT_0; lra).
    unfold masked. rewrite (pl_ones Z IZ) by lra. destruct (Rle_dec 0 1); [reflexivity|lra].
  - rewrite mcol_mat_of by auto. exact IZ.
Qed.

Lemma interpolants_exist nc y j : shaped (g_nlat g) nc y ->
  exists Y, pl_interpolant (g_phi g) (mcol y j) Y.
Proof.
  intros Hy. rewrite (mcol_tab (g_nlat g) nc) by auto. eapply interpolant_exists; eauto.
Qed.

(** quad *)
Definition kappa : R := INR (g_nlon g) * res / 360.
Lemma kappa_pos : 0 < kappa <= 1.
Proof.
  unfold kappa. destruct (grid_shape_floor _ _ _ _ _ Hg) as [[? _] _]. pose proof (gf_res_pos _ _ _ _ F).
  pose proof (nlon_ge4 _ _ _ _ _ Hg). split; [|lra]. 
  apply Rmult_lt_0_compat; [apply Rmult_lt_0_compat; lra|lra].
Qed.

Lemma quad_form m nc y z : known_method m -> (nc <= g_nlon g)%nat ->
  shaped (g_nlat g) nc y -> shaped (g_nlat g) nc z ->
  quad g (A2 y) (Some z) m
  = Ok (g_rsphere g * g_dlam g * Rsum (tab nc (fun j => cq g m (fun i => mget y i j) (fun i => mget z i j)))).
Proof. intros. unfold quad. rewrite (quad_meridional_form g m nc) by auto. reflexivity. Qed.

Lemma quad_const m c : known_method m ->
  quad g (A2 (mat_of (g_nlat g) (g_nlon g) (fun _ _ => c))) None m
  = Ok (c * (4 * PI * (rs * rs)) * (INR (g_nlon g) * res / 360)).
Proof.
  intros Hm. unfold quad. rewrite (quad_meridional_none g m (g_nlon g)) by (auto using shaped_mat_of).
  rewrite (quad_meridional_form g m (g_nlon g)) by (auto using shaped_mat_of).
  cbn [bind]. f_equal.
  replace (tab (g_nlon g) _) with (tab (g_nlon g) (fun _ => c * (2 * rs))).
  - rewrite Rsum_tab_const. rewrite (gf_rs _ _ _ _ F). unfold g_dlam, g_dlon, deg2rad. rewrite (gf_res _ _ _ _ F). field.
  - apply tab_ext. intros j Hj.
    rewrite (cq_ext g m _ _ (fun _ => c * 1 + 0 * 1) (fun _ => 1)).
    + rewrite (cq_linear g m (fun _ => 1) (fun _ => 1)), (cq_one _ _ _ _ _ Hg m Hm). ring.
    + intros i Hi. rewrite mget_mat_of by auto. ring.
    + intros i Hi. now rewrite mget_mat_of.
Qed.

Lemma sphere_area_pos : 0 < 4 * PI * (rs * rs).
Proof.
  pose proof PI_RGT_0. pose proof (gf_rs_pos _ _ _ _ F).
  apply Rmult_lt_0_compat; [lra|]. apply Rmult_lt_0_compat; auto.
Qed.

Lemma kappa_one : kappa = 1 <-> is_integer (360 / res).
Proof.
  rewrite <- (gpa_total_iff _ _ _ _ _ Hg), (gpa_total _ _ _ _ _ Hg). unfold kappa.
  pose proof sphere_area_pos. split; intros E.
  - rewrite E. ring.
  - apply Rmult_eq_reg_l with (4 * PI * (rs * rs)); lra.
Qed.

Lemma quad_const_iff m c : known_method m -> c <> 0 ->
  (quad g (A2 (mat_of (g_nlat g) (g_nlon g) (fun _ _ => c))) None m = Ok (c * (4 * PI * (rs * rs)))
   <-> is_integer (360 / res)).
Proof.
  intros Hm Hc. rewrite quad_const by auto. rewrite <- kappa_one. unfold kappa.
  pose proof sphere_area_pos as P. split; intros E.
  - injection E as E. apply Rmult_eq_reg_l with (c * (4 * PI * (rs * rs))); [lra|].
    apply Rmult_integral_contrapositive_currified; lra.
  - rewrite E. f_equal. ring.
Qed.

(** ** C11 *)
Lemma quadm_linear m nc y1 y2 z a b : known_method m -> (nc <= g_nlon g)%nat ->
  shaped (g_nlat g) nc y1 -> shaped (g_nlat g) nc y2 -> shaped (g_nlat g) nc z ->
  exists q1 q2, quad_meridional g (A2 y1) (Some z) m = Ok q1 /\ quad_meridional g (A2 y2) (Some z) m = Ok q2
    /\ quad_meridional g (A2 (madd (mscale a y1) (mscale b y2))) (Some z) m
       = Ok (vadd (vscale a q1) (vscale b q2)).
Proof.
  intros Hm Hc H1 H2 Hz.
  assert (H12 : shaped (g_nlat g) nc (madd (mscale a y1) (mscale b y2))) by (apply shaped_map2; now apply shaped_mscale).
  eexists. eexists. split; [apply quad_meridional_form with (nc := nc); auto|].
  split; [apply quad_meridional_form with (nc := nc); auto|].
  rewrite (quad_meridional_form g m nc) by auto. f_equal.
  unfold vadd, vscale. rewrite !tab_map, map2_tab. apply tab_ext. intros j Hj.
  rewrite <- cq_linear. apply cq_ext; auto. intros i Hi. unfold madd, vadd.
  rewrite (mget_map2 (g_nlat g) nc) by (auto; now apply shaped_mscale).
  now rewrite !(mget_mscale (g_nlat g) nc).
Qed.

Lemma quadm_mono_field m nc y1 y2 z : known_method m -> (nc <= g_nlon g)%nat ->
  shaped (g_nlat g) nc y1 -> shaped (g_nlat g) nc y2 -> shaped (g_nlat g) nc z ->
  (forall i j, (i < g_nlat g)%nat -> (j < nc)%nat -> mget y1 i j <= mget y2 i j) ->
  exists q1 q2, quad_meridional g (A2 y1) (Some z) m = Ok q1 /\ quad_meridional g (A2 y2) (Some z) m = Ok q2
    /\ length q1 = nc /\ length q2 = nc /\ forall j, (j < nc)%nat -> nth j q1 0 <= nth j q2 0.
Proof.
  intros Hm Hc H1 H2 Hz H.
  eexists. eexists. split; [apply quad_meridional_form with (nc := nc); auto|].
  split; [apply quad_meridional_form with (nc := nc); auto|].
  split; [apply tab_length|]. split; [apply tab_length|]. intros j Hj. rewrite !tab_nth by auto.
  eapply cq_mono_y; eauto.
Qed.
Lemma quadm_mono_domain m nc y z1 z2 : known_method m -> (nc <= g_nlon g)%nat ->
  shaped (g_nlat g) nc y -> shaped (g_nlat g) nc z1 -> shaped (g_nlat g) nc z2 ->
  (forall i j, (i < g_nlat g)%nat -> (j < nc)%nat -> 0 <= mget y i j) ->
  (forall i j, (i < g_nlat g)%nat -> (j < nc)%nat -> mget z1 i j <= mget z2 i j) ->
  exists q1 q2, quad_meridional g (A2 y) (Some z1) m = Ok q1 /\ quad_meridional g (A2 y) (Some z2) m = Ok q2
    /\ length q1 = nc /\ length q2 = nc /\ forall j, (j < nc)%nat -> nth j q1 0 <= nth j q2 0.
Proof.
  intros Hm Hc H1 H2 Hz Hy H.
  eexists. eexists. split; [apply quad_meridional_form with (nc := nc); auto|].
  split; [apply quad_meridional_form with (nc := nc); auto|].
  split; [apply tab_length|]. split; [apply tab_length|]. intros j Hj. rewrite !tab_nth by auto.
  eapply cq_mono_z; eauto.
Qed.
Lemma quadm_split m nc y z : known_method m -> (nc <= g_nlon g)%nat ->
  shaped (g_nlat g) nc y -> shaped (g_nlat g) nc z ->
  (forall i j, (i < g_nlat g)%nat -> (j < nc)%nat -> mget z i j <> 0) ->
  exists qp qn, quad_meridional g (A2 y) (Some z) m = Ok qp
    /\ quad_meridional g (A2 y) (Some (mscale (-1) z)) m = Ok qn
    /\ quad_meridional g (A2 y) None m = Ok (vadd qp qn).
Proof.
  intros Hm Hc H1 Hz H. pose proof (shaped_mscale _ _ (-1) _ Hz) as Hz'.
  eexists. eexists. split; [apply quad_meridional_form with (nc := nc); auto|].
  split; [apply quad_meridional_form with (nc := nc); auto|].
  rewrite (quad_meridional_none g m nc), (quad_meridional_form g m nc) by (auto using shaped_mat_of).
  f_equal. unfold vadd. rewrite map2_tab. apply tab_ext. intros j Hj.
  rewrite <- (cq_ext g m (fun i => mget y i j) (fun _ => 1)); auto.
  2: intros; now rewrite mget_mat_of.
  rewrite <- (cq_split _ _ _ _ _ Hg m _ (fun i => mget z i j)); auto. f_equal.
  apply cq_ext; auto. intros i Hi. rewrite (mget_mscale (g_nlat g) nc) by auto. ring.
Qed.

(** ** C12 *)
Lemma asin_arg_range a : 0 <= a <= 4 * PI * (rs * rs) -> -1 <= 1 - / 2 * a / PI / (rs * rs) <= 1.
Proof.
  intros H. pose proof PI_RGT_0. pose proof (gf_rs_pos _ _ _ _ F).
  assert (P : 0 < rs * rs) by (apply Rmult_lt_0_compat; auto).
  assert (E : / 2 * a / PI / (rs * rs) = 2 * (a / (4 * PI * (rs * rs)))) by (field; repeat split; lra).
  rewrite E. pose proof sphere_area_pos as S.
  assert (0 <= a / (4 * PI * (rs * rs)) <= 1); [|lra].
  split; [apply frac_nonneg; lra|].
  apply Rmult_le_reg_r with (4 * PI * (rs * rs)); auto. unfold Rdiv. rewrite Rmult_assoc, Rinv_l; lra.
Qed.

Lemma eqlat_inside a : 0 <= a <= 4 * PI * (rs * rs) ->
  eqlat1 g a = rad2deg (asin (1 - / 2 * a / PI / (rs * rs))).
Proof.
  intros H. pose proof (asin_arg_range a H) as B. unfold eqlat1. rewrite (gf_rs _ _ _ _ F).
  destruct (Rleb 1 _) eqn:E1; rewrite ?Rleb_true, ?Rleb_false in E1; destruct (Rleb _ (-1)) eqn:E2;
    rewrite ?Rleb_true, ?Rleb_false in E2; try lra; f_equal; f_equal; lra.
Qed.

Lemma rad2deg_bounds x : - (PI / 2) <= x <= PI / 2 -> -90 <= rad2deg x <= 90.
Proof.
  intros H. unfold rad2deg. pose proof PI_RGT_0.
  split; apply Rmult_le_reg_r with PI; auto; unfold Rdiv; rewrite Rmult_assoc, Rinv_l; lra.
Qed.

Lemma eqlat_cap a : 0 <= a <= 4 * PI * (rs * rs) ->
  -90 <= eqlat1 g a <= 90 /\ cap_area rs (deg2rad (eqlat1 g a)) = a.
Proof.
  intros H. pose proof (asin_arg_range a H) as B. rewrite eqlat_inside by auto.
  pose proof (asin_bound (1 - / 2 * a / PI / (rs * rs))).
  split; [apply rad2deg_bounds; lra|].
  rewrite deg2rad_rad2deg, cap_area_formula, sin_asin by auto.
  pose proof PI_RGT_0. pose proof (gf_rs_pos _ _ _ _ F). field. repeat split; lra.
Qed.

Lemma eqlat_clamp a : (a <= 0 -> eqlat1 g a = 90) /\ (4 * PI * (rs * rs) <= a -> eqlat1 g a = -90).
Proof.
  pose proof PI_RGT_0. pose proof (gf_rs_pos _ _ _ _ F).
  assert (P : 0 < rs * rs) by (apply Rmult_lt_0_compat; auto). pose proof sphere_area_pos as S.
  assert (E : / 2 * a / PI / (rs * rs) = 2 * (a / (4 * PI * (rs * rs)))) by (field; repeat split; lra).
  assert (R90 : rad2deg (asin 1) = 90) by (rewrite asin_1; unfold rad2deg; field; lra).
  assert (Rm90 : rad2deg (asin (-1)) = -90) by (replace (-1) with (- (1)) by lra; rewrite asin_opp, asin_1; unfold rad2deg; field; lra).
  unfold eqlat1. rewrite (gf_rs _ _ _ _ F), E. split; intros Ha.
  - assert (0 <= (- a) / (4 * PI * (rs * rs))) by (apply frac_nonneg; lra).
    replace (Rleb 1 _) with true by (symmetry; apply Rleb_true; unfold Rdiv in *; lra).
    replace (Rleb 1 (-1)) with false by (symmetry; apply Rleb_false; lra). exact R90.
  - assert (1 <= a / (4 * PI * (rs * rs))) by (apply Rle_div_r; lra).
    replace (Rleb 1 (1 - 2 * (a / (4 * PI * (rs * rs))))) with false by (symmetry; apply Rleb_false; lra).
    replace (Rleb _ (-1)) with true by (symmetry; apply Rleb_true; lra). exact Rm90.
Qed.

Lemma eqlat_range a : -90 <= eqlat1 g a <= 90.
Proof.
  destruct (Rle_dec a 0); [rewrite (proj1 (eqlat_clamp a)); lra|].
  destruct (Rle_dec (4 * PI * (rs * rs)) a); [rewrite (proj2 (eqlat_clamp a)); lra|].
  apply eqlat_cap. lra.
Qed.

Lemma asin_mono x y : -1 <= x -> x <= y -> y <= 1 -> asin x <= asin y.
Proof.
  intros H1 H2 H3. pose proof (asin_bound x). pose proof (asin_bound y).
  apply sin_incr_0; try lra. now rewrite !sin_asin by lra.
Qed.

Lemma eqlat_decr a b : a <= b -> eqlat1 g b <= eqlat1 g a.
Proof.
  intros H. pose proof (eqlat_range a). pose proof (eqlat_range b).
  destruct (Rle_dec a 0); [rewrite (proj1 (eqlat_clamp a)); lra|].
  destruct (Rle_dec (4 * PI * (rs * rs)) b); [rewrite (proj2 (eqlat_clamp b)); lra|].
  rewrite !eqlat_inside by lra. pose proof PI_RGT_0.
  unfold rad2deg, Rdiv. apply Rmult_le_compat_r; [left; now apply Rinv_0_lt_compat|].
  apply Rmult_le_compat_r; [lra|].
  apply asin_mono; try apply asin_arg_range; try lra.
  pose proof (gf_rs_pos _ _ _ _ F). unfold Rdiv.
  assert (P : 0 < rs * rs) by (apply Rmult_lt_0_compat; auto).
  assert (/ 2 * a * / PI * / (rs * rs) <= / 2 * b * / PI * / (rs * rs)); [|lra].
  apply Rmult_le_compat_r; [left; now apply Rinv_0_lt_compat|].
  apply Rmult_le_compat_r; [left; now apply Rinv_0_lt_compat|lra].
Qed.
End Statements.

Lemma quad_accepts : forall res rs om nt g, mk_grid res rs om nt = Ok g ->
  forall nr nc y, (0 < nr)%nat -> shaped nr nc y -> forall method,
  ((exists q, quad_meridional g (A2 y) None method = Ok q)
     <-> nr = g_nlat g /\ (method = "boxcount"%string \/ method = "sptrapz"%string /\ (nc <= g_nlon g)%nat))
  /\ (nr <> g_nlat g -> quad_meridional g (A2 y) None method = Err AssertionError)
  /\ (nr = g_nlat g -> method <> "boxcount"%string -> method <> "sptrapz"%string ->
        quad_meridional g (A2 y) None method = Err ValueError)
  /\ (nr = g_nlat g -> (g_nlon g < nc)%nat -> quad_meridional g (A2 y) None "sptrapz" = Err ValueError)
  /\ (forall q, quad_meridional g (A2 y) None method = Ok q -> length q = nc).
Proof.
  intros res rs om nt g Hg nr nc y Hnr Hy method.
  assert (Ly : length y = nr) by apply Hy. pose proof (shaped_ncols nr nc y Hy Hnr) as Ec.
  destruct (Nat.eq_dec nr (g_nlat g)) as [E|E].
  2:{ assert (Q : quad_meridional g (A2 y) None method = Err AssertionError).
      { unfold quad_meridional. rewrite Ly. destruct (Nat.eqb_spec nr (g_nlat g)); [contradiction|reflexivity]. }
      rewrite Q. split; [|split; [|split; [|split]]]; try (intros; auto; contradiction || discriminate).
      split; [intros [q Hq]; discriminate|intros [? _]; contradiction]. }
  assert (Sz : shapedb (g_nlat g) nc (mat_of (g_nlat g) nc (fun _ _ => 1)) = true) by apply shapedb_spec, shaped_mat_of.
  assert (Q : forall m, quad_meridional g (A2 y) None m =
     if is_boxcount m then Ok (tab nc (fun j => col_box g (mcol y j) (mcol (mat_of (g_nlat g) nc (fun _ _ => 1)) j)))
     else if is_sptrapz m then
       if Nat.leb nc (g_nlon g) then Ok (tab nc (fun j => col_trapz (g_rsphere g) (g_phi g) (mcol y j) (mcol (mat_of (g_nlat g) nc (fun _ _ => 1)) j)))
       else Err ValueError
     else Err ValueError).
  { intros m. unfold quad_meridional. rewrite Ly, E, Nat.eqb_refl. cbn [passert]. rewrite Ec, Sz. reflexivity. }
  rewrite !Q. unfold is_boxcount, is_sptrapz. cbn [String.eqb Ascii.eqb Bool.eqb].
  destruct (String.eqb_spec method "boxcount") as [->|n1]; [|destruct (String.eqb_spec method "sptrapz") as [->|n2]];
    destruct (Nat.leb_spec nc (g_nlon g)) as [Hl|Hl];
    (split; [split; [intros [q Hq]; try discriminate; auto | intros [_ D]; try (eexists; reflexivity);
        exfalso; destruct D as [D|[D D']]; congruence || lia ]|
     split; [intros; contradiction|split; [intros; try contradiction; auto|split; [intros; auto; lia|
       intros q Hq; try discriminate; apply Ok_inj in Hq; rewrite <- Hq; apply tab_length]]]]).
Qed.
Lemma quad_domain : forall g nc y zr zc z, (0 < g_nlat g)%nat -> shaped (g_nlat g) nc y -> (0 < zr)%nat -> shaped zr zc z -> (nc <= g_nlon g)%nat ->
  ((exists q, quad_meridional g (A2 y) (Some z) "sptrapz" = Ok q) <-> zr = g_nlat g /\ zc = nc)
  /\ (~ (zr = g_nlat g /\ zc = nc) -> quad_meridional g (A2 y) (Some z) "sptrapz" = Err IndexError).
Proof.
  intros g nc y zr zc z P Sy Pz Sz L.
  assert (Q : quad_meridional g (A2 y) (Some z) "sptrapz" = if shapedb (g_nlat g) nc z then
     Ok (tab nc (fun j => col_trapz (g_rsphere g) (g_phi g) (mcol y j) (mcol z j))) else Err IndexError).
  { unfold quad_meridional. rewrite (proj1 Sy), Nat.eqb_refl. cbn [passert]. rewrite (shaped_ncols _ _ _ Sy P).
    cbn [is_boxcount is_sptrapz String.eqb Ascii.eqb Bool.eqb]. now rewrite (proj2 (Nat.leb_le _ _) L). }
  assert (B : shapedb (g_nlat g) nc z = true <-> zr = g_nlat g /\ zc = nc).
  { rewrite shapedb_spec. split.
    - intros S'. pose proof (proj1 S') as L'. rewrite (proj1 Sz) in L'. subst zr. split; [reflexivity|].
      now rewrite <- (shaped_ncols _ _ _ Sz Pz), (shaped_ncols _ _ _ S' P).
    - now intros [<- <-]. }
  rewrite Q. destruct (shapedb (g_nlat g) nc z).
  - split; [|tauto]. split; [intros _; now apply B|eauto].
  - split; [split; [now intros [q Hq]|]|reflexivity]. intros H. apply B in H. discriminate.
Qed.
