(** Zonalization with interpolation: the profile is monotone and brackets the contours. *)
From Coq Require Export String.
From Verif Require Import Base Spec_Interp Model_Grid Model_Quad Proofs_Base Proofs_Grid Proofs_Interp.
From Verif Require Import Model_Region.
From Coq Require Import List Lia Lra Sorted Permutation.
Open Scope R_scope.

Lemma last_filter {A} (f : A -> bool) (l : list A) d : l <> [] -> f (last l d) = true -> last (filter f l) d = last l d.
Proof.
  intros H E. destruct (exists_last H) as [m [a ->]]. rewrite last_last in *. rewrite filter_app. cbn [filter]. rewrite E. now rewrite last_last.
Qed.
Lemma hd_filter {A} (f : A -> bool) (l : list A) d : l <> [] -> f (hd d l) = true -> hd d (filter f l) = hd d l.
Proof. intros H E. destruct l as [|a l]; [easy|]. cbn [hd filter] in *. now rewrite E. Qed.

Section Monotone.
Variables (lat field : list R) (pole : R * R).
Hypothesis Hlen : length field = length lat.
Hypothesis Hlat : within_poles lat.
Let L := padded_nodes lat field pole.
Let node := is_node lat field pole.

Lemma np_cases x : -90 <= x <= 90 ->
  (filter (at_ x) L <> [] /\ eval_np L x = snd (last (filter (at_ x) L) (0, 0)))
  \/ exists a b, node a /\ node b /\ fst a < x < fst b /\ (forall c, node c -> fst c <= fst a \/ fst b <= fst c)
     /\ eval_np L x = line_through a b x /\ a = last (filter (at_ (fst a)) L) (0, 0) /\ b = hd (0, 0) (filter (at_ (fst b)) L).
Proof.
  intros Hx. pose proof (L_sorted lat field pole Hlen : StronglySorted fle L) as S.
  destruct (filter (at_ x) L) as [|z zs] eqn:E.
  2:{ left. split; [discriminate|]. rewrite <- E. apply eval_np_at; [exact S|]. rewrite E. discriminate. }
  right. destruct (np_node_or_line lat field pole Hlen x Hx) as [a0 [b0 [Ha [Hb [[E1 _]|[E1 [G _]]]]]]].
  { exfalso. assert (X : In a0 (filter (at_ x) L)) by (apply filter_In; split; [now apply in_L|now apply Reqb_true]). rewrite E in X. destruct X. }
  assert (NB : filter (below x) L <> []).
  { assert (X : In a0 (filter (below x) L)) by (apply filter_In; split; [now apply in_L|apply Rltb_true; lra]). intros N. rewrite N in X. destruct X. }
  assert (NA : filter (above x) L <> []).
  { assert (X : In b0 (filter (above x) L)) by (apply filter_In; split; [now apply in_L|apply Rltb_true; lra]). intros N. rewrite N in X. destruct X. }
  pose proof (last_in _ (0, 0) NB) as IB.
  assert (IA : In (hd (0, 0) (filter (above x) L)) (filter (above x) L)) by (destruct (filter (above x) L); [easy|now left]).
  pose proof (eval_np_between x L S E NB NA) as EV. pose proof (sorted_split x L S) as SP. rewrite E in SP. cbn [app] in SP.
  set (a := last (filter (below x) L) (0, 0)) in *. set (b := hd (0, 0) (filter (above x) L)) in *.
  pose proof IB as IB'. pose proof IA as IA'. apply filter_In in IB', IA'. destruct IB' as [Q1 Q2], IA' as [Q3 Q4]. apply Rltb_true in Q2, Q4.
  apply in_L in Q1; [|exact Hlen]. apply in_L in Q3; [|exact Hlen].
  assert (Ba : fst a = fst a0).
  { destruct (G a Q1) as [K|K]; [|lra]. destruct (Rle_lt_or_eq_dec _ _ K) as [K2|K2]; [|exact K2]. exfalso.
    assert (X : In a0 (filter (below x) L)) by (apply filter_In; split; [now apply in_L|apply Rltb_true; lra]).
    clear - S X K2. assert (SB : StronglySorted fle (filter (below x) L)).
    { revert S. generalize L as l. induction l as [|y l IH]; cbn [filter]; intros S; [constructor|]. inversion S as [|? ? S1 S2]; subst.
      destruct (below x y); [|now apply IH]. constructor; [now apply IH|]. rewrite Forall_forall in *. intros z Hz. apply filter_In in Hz. now apply S2. }
    unfold a in K2. clearbody L. revert SB X K2. generalize (filter (below x) L) as A. induction A as [|y A IH]; intros SB X K2; [easy|].
    inversion SB as [|? ? S1 S2]; subst. destruct A as [|y' A]; [destruct X as [->|[]]; simpl in K2; lra|].
    change (last (y :: y' :: A) (0, 0)) with (last (y' :: A) (0, 0)) in K2.
    destruct X as [->|X]; [|now apply IH]. rewrite Forall_forall in S2. pose proof (S2 _ (last_in (y' :: A) (0, 0) ltac:(discriminate))) as F. unfold fle in F. lra. }
  assert (Bb : fst b = fst b0).
  { destruct (G b Q3) as [K|K]; [lra|]. destruct (Rle_lt_or_eq_dec _ _ K) as [K2|K2]; [|lra]. exfalso.
    assert (X : In b0 (filter (above x) L)) by (apply filter_In; split; [now apply in_L|apply Rltb_true; lra]).
    clear - S X K2. assert (SB : StronglySorted fle (filter (above x) L)).
    { revert S. generalize L as l. induction l as [|y l IH]; cbn [filter]; intros S; [constructor|]. inversion S as [|? ? S1 S2]; subst.
      destruct (above x y); [|now apply IH]. constructor; [now apply IH|]. rewrite Forall_forall in *. intros z Hz. apply filter_In in Hz. now apply S2. }
    unfold b in K2. clearbody L. revert SB X K2. generalize (filter (above x) L) as A. intros A SB X K2. destruct A as [|y A]; [easy|].
    inversion SB as [|? ? S1 S2]; subst. cbn [hd] in K2. destruct X as [->|X]; [lra|]. rewrite Forall_forall in S2. specialize (S2 _ X). unfold fle in S2. lra. }
  exists a, b. split; [exact Q1|]. split; [exact Q3|]. split; [lra|]. split; [intros c Hc; rewrite Ba, Bb; now apply G|]. split; [exact EV|]. split.
  - rewrite SP, filter_app, (filter_nil (at_ (fst a)) (filter (above x) L)), app_nil_r.
    + symmetry. apply last_filter; [exact NB|]. now apply Reqb_true.
    + intros c Hc. apply filter_In in Hc. destruct Hc as [_ Hc]. apply Rltb_true in Hc. apply Reqb_false. lra.
  - rewrite SP, filter_app, (filter_nil (at_ (fst b)) (filter (below x) L)).
    + cbn [app]. symmetry. apply hd_filter; [exact NA|]. now apply Reqb_true.
    + intros c Hc. apply filter_In in Hc. destruct Hc as [_ Hc]. apply Rltb_true in Hc. apply Reqb_false. lra.
Qed.

Hypothesis Strict : forall a b, node a -> node b -> fst a < fst b -> snd a <= snd b.
Hypothesis Tie_hi : forall p, node p -> snd p <= snd (last (filter (at_ (fst p)) L) (0, 0)).
Hypothesis Tie_lo : forall p, node p -> -90 < fst p -> snd (hd (0, 0) (filter (at_ (fst p)) L)) <= snd p.
Lemma Ties x : -90 < x -> filter (at_ x) L <> [] -> snd (hd (0, 0) (filter (at_ x) L)) <= snd (last (filter (at_ x) L) (0, 0)).
Proof.
  intros B N. pose proof (last_in _ (0, 0) N) as I. apply filter_In in I. destruct I as [I E]. apply in_L in I; [|exact Hlen]. apply Reqb_true in E.
  pose proof (Tie_lo _ I ltac:(lra)) as T. rewrite E in T. exact T.
Qed.

Lemma line_mono a b x y : fst a < fst b -> snd a <= snd b -> x <= y -> line_through a b x <= line_through a b y.
Proof.
  intros F S H. unfold line_through. apply Rplus_le_compat_r, Rmult_le_compat_l; [|lra].
  unfold Rdiv. apply Rmult_le_pos; [lra|]. apply Rlt_le, Rinv_0_lt_compat. lra.
Qed.
Lemma line_between a b x : fst a < x < fst b -> snd a <= snd b -> snd a <= line_through a b x <= snd b.
Proof. intros H S. apply line_bounds; lra. Qed.

Lemma np_monotone x1 x2 : -90 <= x1 -> x1 <= x2 -> x2 <= 90 -> eval_np L x1 <= eval_np L x2.
Proof.
  intros B1 H B2. destruct (Req_dec x1 x2) as [->|NE]; [lra|]. assert (H' : x1 < x2) by lra. clear NE.
  assert (inode : forall x p, In p (filter (at_ x) L) -> node p /\ fst p = x).
  { intros x p Hp. apply filter_In in Hp. destruct Hp as [Hp E]. apply in_L in Hp; [|exact Hlen]. apply Reqb_true in E. auto. }
  assert (lnode : forall x, filter (at_ x) L <> [] -> node (last (filter (at_ x) L) (0, 0)) /\ fst (last (filter (at_ x) L) (0, 0)) = x).
  { intros x NE. apply inode, last_in, NE. }
  assert (hasn : forall x p, node p -> fst p = x -> filter (at_ x) L <> []).
  { intros x p Hp E N. assert (X : In p (filter (at_ x) L)) by (apply filter_In; split; [now apply in_L|now apply Reqb_true]). rewrite N in X. destruct X. }
  destruct (np_cases x1 ltac:(lra)) as [[N1 ->]|[a1 [b1 [A1 [C1 [D1 [G1 [-> [La1 Hb1]]]]]]]]];
  destruct (np_cases x2 ltac:(lra)) as [[N2 ->]|[a2 [b2 [A2 [C2 [D2 [G2 [-> [La2 Hb2]]]]]]]]].
  - destruct (lnode x1 N1), (lnode x2 N2). apply Strict; auto; lra.
  - destruct (lnode x1 N1) as [M1 F1]. pose proof (line_between a2 b2 x2 D2 (Strict _ _ A2 C2 ltac:(lra))) as LB.
    destruct (G2 _ M1) as [K|K]; [|lra]. rewrite F1 in K. destruct (Rle_lt_or_eq_dec _ _ K) as [K2|K2].
    + pose proof (Strict _ _ M1 A2 ltac:(lra)). lra.
    + subst x1. rewrite <- La2. lra.
  - destruct (lnode x2 N2) as [M2 F2]. pose proof (line_between a1 b1 x1 D1 (Strict _ _ A1 C1 ltac:(lra))) as LB.
    destruct (G1 _ M2) as [K|K]; [lra|]. rewrite F2 in K. destruct (Rle_lt_or_eq_dec _ _ K) as [K2|K2].
    + pose proof (Strict _ _ C1 M2 ltac:(lra)). lra.
    + pose proof (Ties x2 ltac:(lra) N2) as T. rewrite <- K2 in T at 1. rewrite <- Hb1 in T. lra.
  - pose proof (line_between a1 b1 x1 D1 (Strict _ _ A1 C1 ltac:(lra))) as LB1. pose proof (line_between a2 b2 x2 D2 (Strict _ _ A2 C2 ltac:(lra))) as LB2.
    destruct (G1 _ A2) as [K|K].
    + assert (fst a1 <= fst a2) by (destruct (G2 _ A1); lra). assert (fst b1 <= fst b2) by (destruct (G1 _ C2); lra).
      assert (fst b2 <= fst b1) by (destruct (G2 _ C1); lra).
      assert (Ea : a1 = a2) by (rewrite La1, La2; do 2 f_equal; f_equal; lra).
      assert (Eb : b1 = b2) by (rewrite Hb1, Hb2; do 2 f_equal; f_equal; lra). subst a2 b2.
      apply line_mono; [lra| |lra]. apply Strict; auto; lra.
    + destruct (Rle_lt_or_eq_dec _ _ K) as [K2|K2].
      * pose proof (Strict _ _ C1 A2 ltac:(lra)). lra.
      * pose proof (Ties (fst b1) ltac:(lra) (hasn _ b1 C1 eq_refl)) as T. rewrite <- Hb1 in T. rewrite K2, <- La2 in T. lra.
Qed.
(** nodes further south have smaller, nodes further north larger values *)
Lemma np_brackets x p : -90 <= x <= 90 -> node p -> (fst p < x -> snd p <= eval_np L x) /\ (x < fst p -> eval_np L x <= snd p).
Proof.
  intros Hx Hp. destruct (np_cases x Hx) as [[N ->]|[a [b [A [C [D [G [-> [LA HB]]]]]]]]].
  - assert (M : node (last (filter (at_ x) L) (0, 0)) /\ fst (last (filter (at_ x) L) (0, 0)) = x).
    { pose proof (last_in _ (0, 0) N) as I. apply filter_In in I. destruct I as [I E]. apply in_L in I; [|exact Hlen]. apply Reqb_true in E. auto. }
    destruct M as [M1 M2]. split; intros H; apply Strict; auto; lra.
  - pose proof (line_between a b x D (Strict _ _ A C ltac:(lra))) as LB. destruct (G p Hp) as [K|K].
    + split; intros H; [|lra]. destruct (Rle_lt_or_eq_dec _ _ K) as [K2|K2]; [pose proof (Strict _ _ Hp A K2); lra|].
      pose proof (Tie_hi p Hp) as T. rewrite K2, <- LA in T. lra.
    + split; intros H; [lra|]. destruct (Rle_lt_or_eq_dec _ _ K) as [K2|K2]; [pose proof (Strict _ _ C Hp K2); lra|].
      pose proof (Tie_lo p Hp ltac:(lra)) as T. rewrite <- K2, <- HB in T. lra.
Qed.
End Monotone.

Section Groups.
Variables (lat field : list R) (hi lo : R).
Hypothesis Hlen : length field = length lat.
Hypothesis Hlat : within_poles lat.
Hypothesis Hf : forall i j, (i <= j)%nat -> (j < length field)%nat -> nth i field 0 <= nth j field 0.
Hypothesis Hy : forall i j, (i <= j)%nat -> (j < length field)%nat -> nth i lat 0 <= nth j lat 0.
Hypothesis Hr : forall i, (i < length field)%nat -> lo <= nth i field 0 <= hi.
Hypothesis Hle : lo <= hi.
Hypothesis Hn : forall i, (i < length field)%nat -> nth i field 0 < hi -> nth i lat 0 < 90.
Hypothesis Hs : forall i, (i < length field)%nat -> lo < nth i field 0 -> -90 < nth i lat 0.
Let L := padded_nodes lat field (hi, lo).
Let node := is_node lat field (hi, lo).
Definition sle (a b : R * R) := snd a <= snd b.

Lemma ss_filter {A} (r : A -> A -> Prop) f l : StronglySorted r l -> StronglySorted r (filter f l).
Proof.
  induction 1 as [|a l H1 IH H2]; cbn [filter]; [constructor|]. destruct (f a); [|exact IH]. constructor; [exact IH|].
  rewrite Forall_forall in *. intros z Hz. apply filter_In in Hz. now apply H2.
Qed.
Lemma ss_nth {A} (r : A -> A -> Prop) d l : (forall i j, (i < j)%nat -> (j < length l)%nat -> r (nth i l d) (nth j l d)) -> StronglySorted r l.
Proof.
  induction l as [|a l IH]; intros H; constructor.
  - apply IH. intros i j Hi Hj. apply (H (S i) (S j)); cbn; lia.
  - apply Forall_forall. intros x Hx. apply (In_nth _ _ d) in Hx as [j [Hj <-]]. apply (H 0%nat (S j)); cbn; lia.
Qed.
Lemma ss_const l : (forall p, In p l -> snd p = hi) \/ (forall p, In p l -> snd p = lo) -> StronglySorted sle l.
Proof.
  intros H. apply (ss_nth sle (0, 0)). intros i j Hi Hj. unfold sle.
  assert (I1 : In (nth i l (0, 0)) l) by (apply nth_In; lia). assert (I2 : In (nth j l (0, 0)) l) by (apply nth_In; lia).
  destruct H as [H|H]; rewrite !H by assumption; lra.
Qed.
Lemma group_sorted x : StronglySorted sle (filter (at_ x) L).
Proof.
  unfold L. rewrite L_raw by exact Hlen. rewrite sort_stable.
  assert (D : forall p, In p (filter (at_ x) (raw lat field (hi, lo))) -> fst p = x /\ is_node lat field (hi, lo) p).
  { intros p Hp. apply filter_In in Hp. destruct Hp as [Hp E]. apply Reqb_true in E. split; [exact E|]. now apply in_raw. }
  destruct (Req_dec x 90) as [->|N].
  - apply ss_const. left. intros p Hp. destruct (D p Hp) as [E [->|[->|[i [Hi ->]]]]]; cbn [fst snd] in *; [reflexivity|lra|].
    specialize (Hn i ltac:(lia)). specialize (Hr i ltac:(lia)). lra.
  - destruct (Req_dec x (-90)) as [->|S].
    + apply ss_const. right. intros p Hp. destruct (D p Hp) as [E [->|[->|[i [Hi ->]]]]]; cbn [fst snd] in *; [lra|reflexivity|].
      specialize (Hs i ltac:(lia)). specialize (Hr i ltac:(lia)). lra.
    + unfold raw. cbn [filter]. replace (at_ x (90, fst (hi, lo))) with false by (symmetry; apply Reqb_false; cbn; lra).
      rewrite filter_app. cbn [filter]. replace (at_ x (-90, snd (hi, lo))) with false by (symmetry; apply Reqb_false; cbn; lra).
      rewrite app_nil_r. apply ss_filter. apply (ss_nth sle (0, 0)). intros i j Hi Hj. rewrite combine_length in Hj.
      unfold sle. rewrite !combine_nth by lia. cbn [snd]. apply Hf; lia.
Qed.
Lemma in_group p : node p -> In p (filter (at_ (fst p)) L).
Proof. intros Hp. apply filter_In. split; [now apply in_L|now apply Reqb_true]. Qed.
Lemma ss_last l p : StronglySorted sle l -> In p l -> snd p <= snd (last l (0, 0)).
Proof.
  induction 1 as [|a l S IH F]; intros I; [destruct I|]. destruct l as [|b l]; [destruct I as [->|[]]; cbn; lra|].
  change (last (a :: b :: l) (0, 0)) with (last (b :: l) (0, 0)). destruct I as [->|I]; [|now apply IH].
  rewrite Forall_forall in F. apply F, last_in. discriminate.
Qed.
Lemma tie_hi p : node p -> snd p <= snd (last (filter (at_ (fst p)) L) (0, 0)).
Proof. intros Hp. apply ss_last; [apply group_sorted|now apply in_group]. Qed.
Lemma tie_lo p : node p -> -90 < fst p -> snd (hd (0, 0) (filter (at_ (fst p)) L)) <= snd p.
Proof.
  intros Hp _. pose proof (group_sorted (fst p)) as S. pose proof (in_group p Hp) as I. destruct S as [|a l S F]; [destruct I|].
  cbn [hd]. destruct I as [->|I]; [lra|]. rewrite Forall_forall in F. now apply F.
Qed.
Lemma strict a b : node a -> node b -> fst a < fst b -> snd a <= snd b.
Proof.
  intros [->|[->|[i [Hi ->]]]] [->|[->|[j [Hj ->]]]] H; cbn [fst snd] in *; try lra; rewrite <- Hlen in *.
  - pose proof (Hlat (nth j lat 0) ltac:(apply nth_In; lia)). lra.
  - apply Hr; lia.
  - apply Hr; lia.
  - pose proof (Hlat (nth i lat 0) ltac:(apply nth_In; lia)). lra.
  - destruct (Nat.le_gt_cases i j) as [K|K]; [apply Hf; lia|]. pose proof (Hy j i ltac:(lia) ltac:(lia)). lra.
Qed.
Lemma profile_monotone x1 x2 : -90 <= x1 -> x1 <= x2 -> x2 <= 90 -> eval_np L x1 <= eval_np L x2.
Proof. apply np_monotone; auto using strict, tie_hi, tie_lo. Qed.
Lemma profile_brackets x i : -90 <= x <= 90 -> (i < length field)%nat ->
  (nth i lat 0 < x -> nth i field 0 <= eval_np L x) /\ (x < nth i lat 0 -> eval_np L x <= nth i field 0).
Proof.
  intros Hx Hi. apply (np_brackets lat field (hi, lo) Hlen strict tie_hi tie_lo x (nth i lat 0, nth i field 0) Hx).
  right. right. exists i. split; [lia|reflexivity].
Qed.
Lemma profile_north : eval_np L 90 = hi.
Proof.
  assert (N : filter (at_ 90) L <> []).
  { pose proof (in_group (90, hi) (or_introl eq_refl)) as I. intros E. cbn [fst] in I. rewrite E in I. destruct I. }
  pose proof (L_sorted lat field (hi, lo) Hlen : StronglySorted fle L) as S. rewrite (eval_np_at 90 L S N).
  apply Rle_antisym; [|exact (tie_hi (90, hi) (or_introl eq_refl))].
  pose proof (last_in _ (0, 0) N) as I. apply filter_In in I. destruct I as [I _]. apply in_L in I; [|exact Hlen].
  destruct I as [->|[->|[i [Hi ->]]]]; cbn [fst snd]; [lra|lra|apply Hr; lia].
Qed.
Lemma profile_range x : -90 <= x <= 90 -> lo <= eval_np L x <= hi.
Proof.
  intros Hx. apply (np_bounds lat field (hi, lo) Hlen x Hx). intros p [->|[->|[i [Hi ->]]]]; cbn [snd fst]; [lra|lra|apply Hr; lia].
Qed.
End Groups.

(** ** The profile of a field *)
From Verif Require Import Spec_Grid Spec_Quad Proofs_Quad Proofs_Region Proofs_Zonalize Proofs_Falwa.
Section Strict.
Variables (res rs om : R) (nt : option Z) (g : grid).
Hypothesis Hg : mk_grid res rs om nt = Ok g.
Let F := mk_grid_facts _ _ _ _ _ Hg.

Lemma cq_lt_any m Z i : known_method m -> (i < g_nlat g)%nat -> Z i < 0 -> cq g m (fun _ => 1) Z < 2 * rs.
Proof.
  intros [->| ->] Hi Hz; [|now apply (cq_lt_full _ _ _ _ _ Hg _ i)].
  rewrite <- (cq_one _ _ _ _ _ Hg "boxcount") by now left. unfold cq. cbn [is_boxcount String.eqb Ascii.eqb Bool.eqb].
  pose proof (rs_pos _ _ _ _ _ Hg). pose proof (dlam_gpos _ _ _ _ _ Hg). unfold Rdiv.
  apply Rmult_lt_compat_r; [now apply Rinv_0_lt_compat|]. apply Rmult_lt_compat_r; [now apply Rinv_0_lt_compat|].
  replace (Rleb 0 1) with true by (symmetry; apply Rleb_true; lra).
  apply (Rsum_tab_lt _ _ _ _ _ Hg _ _ _ i); [|exact Hi|].
  - intros k Hk. pose proof (gpa_pos _ _ _ _ _ Hg k Hk). destruct (Rleb 0 (Z k)); lra.
  - pose proof (gpa_pos _ _ _ _ _ Hg i Hi). replace (Rleb 0 (Z i)) with false by (symmetry; apply Rleb_false; lra). lra.
Qed.
Lemma cq_gt_any m Z i : known_method m -> (i < g_nlat g)%nat -> 0 < Z i -> 0 < cq g m (fun _ => 1) Z.
Proof.
  intros [->| ->] Hi Hz; [|now apply (cq_gt_zero _ _ _ _ _ Hg _ i)].
  unfold cq. cbn [is_boxcount String.eqb Ascii.eqb Bool.eqb].
  pose proof (rs_pos _ _ _ _ _ Hg). pose proof (dlam_gpos _ _ _ _ _ Hg). unfold Rdiv.
  apply Rmult_lt_0_compat; [|now apply Rinv_0_lt_compat]. apply Rmult_lt_0_compat; [|now apply Rinv_0_lt_compat].
  apply Rle_lt_trans with (Rsum (tab (g_nlat g) (fun _ => 0))); [rewrite Rsum_tab_const; lra|]. apply (Rsum_tab_lt _ _ _ _ _ Hg _ _ _ i); [|exact Hi|].
  - intros k Hk. pose proof (gpa_pos _ _ _ _ _ Hg k Hk). destruct (Rleb 0 (Z k)); lra.
  - pose proof (gpa_pos _ _ _ _ _ Hg i Hi). replace (Rleb 0 (Z i)) with true by (symmetry; apply Rleb_true; lra). lra.
Qed.

Variables (m : string) (nc : nat) (f : mat).
Hypothesis Hm : known_method m.
Hypothesis Hnc : (0 < nc <= g_nlon g)%nat.
Definition farea (q : R) : R := carea res rs g m nc f q * (INR (g_nlon g) / INR nc).
Lemma frac_pos : 0 < INR (g_nlon g) / INR nc.
Proof. apply Rdiv_lt_0_compat; apply lt_0_INR; lia. Qed.
Lemma farea_pos q i j : (i < g_nlat g)%nat -> (j < nc)%nat -> q < mget f i j -> 0 < farea q.
Proof.
  intros Hi Hj H. unfold farea, carea. apply Rmult_lt_0_compat; [|apply frac_pos].
  apply Rmult_lt_0_compat; [apply Rmult_lt_0_compat; [exact (gf_rs_pos _ _ _ _ F)|apply (deg2rad_res_pos _ _ _ _ _ Hg)]|].
  apply Rle_lt_trans with (Rsum (tab nc (fun _ => 0))); [rewrite Rsum_tab_const; lra|]. apply (Rsum_tab_lt _ _ _ _ _ Hg _ _ _ j); [|exact Hj|].
  - intros. now apply (cq_bounds _ _ _ _ _ Hg).
  - apply (cq_gt_any m _ i Hm Hi). lra.
Qed.
Lemma farea_lt q i j : (i < g_nlat g)%nat -> (j < nc)%nat -> mget f i j < q -> farea q < 4 * PI * (rs * rs).
Proof.
  intros Hi Hj H. pose proof (gf_rs_pos _ _ _ _ F) as Hr. pose proof (deg2rad_res_pos _ _ _ _ _ Hg) as Hd.
  assert (Hn : 0 < INR nc) by (apply lt_0_INR; lia).
  assert (B : Rsum (tab nc (fun j => cq g m (fun _ => 1) (fun i => mget f i j - q))) < INR nc * (2 * rs)).
  { rewrite <- Rsum_tab_const. apply (Rsum_tab_lt _ _ _ _ _ Hg _ _ _ j); [|exact Hj|].
    - intros. now apply (cq_bounds _ _ _ _ _ Hg).
    - apply (cq_lt_any m _ i Hm Hi). lra. }
  unfold farea, carea. apply Rlt_le_trans with (rs * deg2rad res * (INR nc * (2 * rs)) * (INR (g_nlon g) / INR nc)).
  - apply Rmult_lt_compat_r; [apply frac_pos|]. apply Rmult_lt_compat_l; [now apply Rmult_lt_0_compat|exact B].
  - pose proof (kappa_pos _ _ _ _ _ Hg) as K. pose proof (sphere_area_pos _ _ _ _ _ Hg) as SA. pose proof PI_RGT_0.
    replace (rs * deg2rad res * (INR nc * (2 * rs)) * (INR (g_nlon g) / INR nc)) with (4 * PI * (rs * rs) * kappa res g) by (unfold kappa, deg2rad; field; lra). nra.
Qed.
Lemma farea_bounds q : 0 <= farea q <= 4 * PI * (rs * rs).
Proof. apply (carea_bounds _ _ _ _ _ Hg); [exact Hm|lia]. Qed.
Lemma fy_spec q : -90 <= eqlat1 g (farea q) <= 90 /\ cap_area rs (deg2rad (eqlat1 g (farea q))) = farea q.
Proof. apply (eqlat_cap _ _ _ _ _ Hg). apply farea_bounds. Qed.
Lemma fy_lt q i j : (i < g_nlat g)%nat -> (j < nc)%nat -> q < mget f i j -> eqlat1 g (farea q) < 90.
Proof.
  intros Hi Hj H. pose proof (farea_pos q i j Hi Hj H) as P. destruct (fy_spec q) as [B E]. destruct (Req_dec (eqlat1 g (farea q)) 90) as [X|]; [|lra].
  rewrite X, cap_area_formula, deg2rad_90, sin_PI2 in E. lra.
Qed.
Lemma fy_gt q i j : (i < g_nlat g)%nat -> (j < nc)%nat -> mget f i j < q -> -90 < eqlat1 g (farea q).
Proof.
  intros Hi Hj H. pose proof (farea_lt q i j Hi Hj H) as P. destruct (fy_spec q) as [B E]. destruct (Req_dec (eqlat1 g (farea q)) (-90)) as [X|]; [|lra].
  rewrite X, cap_area_formula, deg2rad_m90, sin_neg, sin_PI2 in E. lra.
Qed.
Lemma fy_mono p q : p <= q -> eqlat1 g (farea p) <= eqlat1 g (farea q).
Proof.
  intros H. apply (eqlat_decr _ _ _ _ _ Hg). unfold farea. apply Rmult_le_compat_r; [apply Rlt_le, frac_pos|]. now apply (carea_mono _ _ _ _ _ Hg).
Qed.
(** the cap north of a latitude is smaller than the area exactly if the equivalent latitude is further south *)
Lemma fy_cap q x : -90 <= x <= 90 -> (cap_area rs (deg2rad x) < farea q <-> eqlat1 g (farea q) < x) /\ (farea q < cap_area rs (deg2rad x) <-> x < eqlat1 g (farea q)).
Proof.
  intros Hx. destruct (fy_spec q) as [B E]. set (y := eqlat1 g (farea q)) in *. clearbody y. rewrite <- E, !cap_area_formula.
  pose proof (gf_rs_pos _ _ _ _ F) as Hr. pose proof PI_RGT_0 as HP. assert (C : 0 < 2 * PI * rs * rs) by (apply Rmult_lt_0_compat; [apply Rmult_lt_0_compat; lra|exact Hr]).
  assert (M : forall a b, -90 <= a <= 90 -> -90 <= b <= 90 -> (2 * PI * rs * rs * (1 - sin (deg2rad a)) < 2 * PI * rs * rs * (1 - sin (deg2rad b)) <-> b < a)).
  { intros a b Ha Hb. pose proof (deg2rad_range a Ha) as Ra. pose proof (deg2rad_range b Hb) as Rb. split; intros H.
    - apply (proj2 (deg2rad_lt _ _)). apply sin_increasing_0; try lra. apply Rmult_lt_reg_l in H; lra.
    - apply (proj1 (deg2rad_lt _ _)) in H. apply Rmult_lt_compat_l; [exact C|]. apply sin_increasing_1 in H; lra. }
  split; apply M; assumption.
Qed.
End Strict.
