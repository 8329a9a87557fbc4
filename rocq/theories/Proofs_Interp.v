From Coq Require Export String.
From Verif Require Export Base Model_Grid Proofs_Base Proofs_Grid Proofs_Region Model_Quad Spec_Interp.
From Coq Require Import Permutation Sorted Lia Lra.
Open Scope R_scope.

Notation node := (R * R)%type.
Definition fle (a b : node) := fst a <= fst b.

(** ** the sort: stable, sorted, a permutation *)
Lemma insert_perm p l : Permutation (insert_node p l) (p :: l).
Proof.
  induction l as [|q t IH]; simpl; [auto|]. destruct (Rleb (fst p) (fst q)); [auto|].
  rewrite IH. apply perm_swap.
Qed.
Lemma sort_perm l : Permutation (sort_nodes l) l.
Proof.
  induction l as [|p t IH]; [constructor|]. cbn [sort_nodes fold_right]. fold (sort_nodes t).
  rewrite insert_perm. now constructor.
Qed.
Lemma insert_sorted p l : StronglySorted fle l -> StronglySorted fle (insert_node p l).
Proof.
  induction l as [|q t IH]; intros H; simpl; [repeat constructor|].
  inversion H as [|? ? H1 H2]; subst. destruct (Rleb (fst p) (fst q)) eqn:E.
  - constructor; [auto|]. apply Rleb_true in E. constructor; [exact E|].
    eapply Forall_impl; [|exact H2]. unfold fle. intros a Ha; lra.
  - constructor; [auto|]. apply Rleb_false in E.
    eapply Permutation_Forall; [apply Permutation_sym, insert_perm|].
    constructor; [unfold fle; lra|auto].
Qed.
Lemma sort_sorted l : StronglySorted fle (sort_nodes l).
Proof.
  induction l as [|p t IH]; [constructor|]. cbn [sort_nodes fold_right]. now apply insert_sorted.
Qed.
Definition at_ (x : R) (p : node) : bool := Reqb (fst p) x.
Lemma insert_stable x p l : filter (at_ x) (insert_node p l) = filter (at_ x) (p :: l).
Proof.
  induction l as [|q t IH]; [reflexivity|]. cbn [insert_node].
  destruct (Rleb (fst p) (fst q)) eqn:E; [reflexivity|]. apply Rleb_false in E.
  cbn [filter]. rewrite IH. cbn [filter]. unfold at_.
  destruct (Reqb (fst p) x) eqn:E1; destruct (Reqb (fst q) x) eqn:E2; auto.
  apply Reqb_true in E1. apply Reqb_true in E2. lra.
Qed.
Lemma sort_stable x l : filter (at_ x) (sort_nodes l) = filter (at_ x) l.
Proof.
  induction l as [|p t IH]; [reflexivity|]. cbn [sort_nodes fold_right]. fold (sort_nodes t).
  rewrite insert_stable. cbn [filter]. now rewrite IH.
Qed.

(** ** a sorted list splits at x *)
Definition below (x : R) (p : node) : bool := Rltb (fst p) x.
Definition above (x : R) (p : node) : bool := Rltb x (fst p).
Lemma filter_nil {A} (f : A -> bool) l : (forall a, In a l -> f a = false) -> filter f l = [].
Proof.
  induction l as [|a l IH]; intros H; [reflexivity|]. simpl. rewrite (H a) by now left.
  apply IH. intros b Hb. apply H. now right.
Qed.
Lemma filter_all {A} (f : A -> bool) l : (forall a, In a l -> f a = true) -> filter f l = l.
Proof.
  induction l as [|a l IH]; intros H; [reflexivity|]. simpl. rewrite (H a) by now left.
  f_equal. apply IH. intros b Hb. apply H. now right.
Qed.
Lemma sorted_split x l : StronglySorted fle l ->
  l = filter (below x) l ++ filter (at_ x) l ++ filter (above x) l.
Proof.
  induction 1 as [|a l H IH HF]; [reflexivity|]. cbn [filter].
  rewrite Forall_forall in HF. unfold fle in HF.
  unfold below at 1, at_ at 1, above at 1.
  destruct (Rltb (fst a) x) eqn:E1.
  - apply Rltb_true in E1.
    replace (Reqb (fst a) x) with false by (symmetry; apply Reqb_false; lra).
    replace (Rltb x (fst a)) with false by (symmetry; apply Rltb_false; lra).
    cbn [app]. now f_equal.
  - apply Rltb_false in E1. destruct (Reqb (fst a) x) eqn:E2.
    + apply Reqb_true in E2. replace (Rltb x (fst a)) with false by (symmetry; apply Rltb_false; lra).
      rewrite (filter_nil (below x) l) in *.
      * cbn [app] in *. now f_equal.
      * intros b Hb. apply Rltb_false. specialize (HF b Hb). lra.
      * intros b Hb. apply Rltb_false. specialize (HF b Hb). lra.
    + apply Reqb_false in E2. replace (Rltb x (fst a)) with true by (symmetry; apply Rltb_true; lra).
      assert (N1 : filter (below x) l = []).
      { apply filter_nil. intros b Hb. apply Rltb_false. specialize (HF b Hb). lra. }
      assert (N2 : filter (at_ x) l = []).
      { apply filter_nil. intros b Hb. apply Reqb_false. specialize (HF b Hb). lra. }
      rewrite N1, N2 in *. cbn [app] in *. now f_equal.
Qed.

Lemma count_le x l : count_if (fun t => Rleb t x) (map fst l)
  = (length (filter (below x) l) + length (filter (at_ x) l))%nat.
Proof.
  unfold count_if. induction l as [|a l IH]; [reflexivity|]. cbn [map filter].
  unfold below at 1, at_ at 1.
  destruct (Rleb (fst a) x) eqn:E.
  - apply Rleb_true in E. destruct (Rltb (fst a) x) eqn:E1; destruct (Reqb (fst a) x) eqn:E2; cbn [length]; rewrite IH; try lia.
    + apply Rltb_true in E1. apply Reqb_true in E2. lra.
    + apply Rltb_false in E1. apply Reqb_false in E2. lra.
  - apply Rleb_false in E. replace (Rltb (fst a) x) with false by (symmetry; apply Rltb_false; lra).
    replace (Reqb (fst a) x) with false by (symmetry; apply Reqb_false; lra). exact IH.
Qed.
Lemma count_lt x l : count_if (fun t => Rltb t x) (map fst l) = length (filter (below x) l).
Proof.
  unfold count_if. induction l as [|a l IH]; [reflexivity|]. cbn [map filter].
  unfold below at 1. destruct (Rltb (fst a) x); cbn [length]; auto.
Qed.

(** ** evaluation *)
Lemma last_app {A} (l m : list A) d : m <> [] -> last (l ++ m) d = last m d.
Proof.
  intros H. destruct (exists_last H) as [m' [a ->]]. now rewrite app_assoc, !last_last.
Qed.
Lemma nth_last {A} (l : list A) d : nth (length l - 1) l d = last l d.
Proof.
  destruct l as [|a l]; [reflexivity|]. destruct (exists_last (l := a :: l) ltac:(easy)) as [m [b ->]].
  rewrite last_last, app_length. cbn [length]. replace (length m + 1 - 1)%nat with (length m) by lia.
  rewrite app_nth2 by lia. now rewrite Nat.sub_diag.
Qed.
Lemma last_in {A} (l : list A) d : l <> [] -> In (last l d) l.
Proof. intros H. destruct (exists_last H) as [m [a ->]]. rewrite last_last. apply in_or_app. right. now left. Qed.

Notation d0 := (0, 0).
Lemma eval_np_at x l : StronglySorted fle l -> filter (at_ x) l <> [] ->
  eval_np l x = snd (last (filter (at_ x) l) d0).
Proof.
  intros S H. unfold eval_np. rewrite count_le.
  set (j := (_ - 1)%nat).
  assert (Ej : nth j l d0 = last (filter (at_ x) l) d0).
  { rewrite (sorted_split x l S) at 1. unfold j.
    set (A := filter (below x) l). set (B := filter (at_ x) l) in *.
    assert (length B <> 0)%nat by (destruct B; [easy|simpl; lia]).
    rewrite app_nth2 by lia. rewrite app_nth1 by lia.
    replace (length A + length B - 1 - length A)%nat with (length B - 1)%nat by lia. apply nth_last. }
  rewrite Ej. destruct (Nat.eqb j (length l - 1)); [reflexivity|].
  replace (Reqb _ x) with true; [reflexivity|]. symmetry.
  pose proof (last_in _ d0 H) as I. apply filter_In in I. apply I.
Qed.

Lemma eval_np_between x l : StronglySorted fle l -> filter (at_ x) l = [] ->
  filter (below x) l <> [] -> filter (above x) l <> [] ->
  eval_np l x = line_through (last (filter (below x) l) d0) (hd d0 (filter (above x) l)) x.
Proof.
  intros S H HA HC. unfold eval_np. rewrite count_le, H. cbn [length].
  pose proof (sorted_split x l S) as E. rewrite H in E. cbn [app] in E.
  set (A := filter (below x) l) in *. set (C := filter (above x) l) in *.
  assert (LA : length A <> 0%nat) by (destruct A; [easy|simpl; lia]).
  assert (LC : length C <> 0%nat) by (destruct C; [easy|simpl; lia]).
  assert (Ea : nth (length A + 0 - 1) l d0 = last A d0).
  { rewrite E at 1. rewrite app_nth1 by lia. rewrite Nat.add_0_r. apply nth_last. }
  assert (Ec : nth (Datatypes.S (length A + 0 - 1)) l d0 = hd d0 C).
  { rewrite E at 1. rewrite app_nth2 by lia.
    replace (Datatypes.S (length A + 0 - 1) - length A)%nat with 0%nat by lia. now destruct C. }
  replace (Nat.eqb _ _) with false.
  2:{ symmetry. apply Nat.eqb_neq. rewrite E at 1. rewrite app_length. lia. }
  rewrite Ea, Ec. replace (Reqb _ x) with false; [reflexivity|].
  symmetry. apply Reqb_false. pose proof (last_in A d0 HA) as I. apply filter_In in I.
  destruct I as [_ I]. apply Rltb_true in I. lra.
Qed.

Lemma eval_linear_inside x l : StronglySorted fle l ->
  let B := filter (at_ x) l ++ filter (above x) l in
  filter (below x) l <> [] -> B <> [] ->
  eval_linear l x = Some (line_through (last (filter (below x) l) d0) (hd d0 B) x).
Proof.
  intros S B HA HB. unfold eval_linear. rewrite count_lt.
  pose proof (sorted_split x l S) as E. fold B in E.
  set (A := filter (below x) l) in *.
  assert (LA : length A <> 0%nat) by (destruct A; [easy|simpl; lia]).
  assert (LB : length B <> 0%nat) by (destruct B; [easy|simpl; lia]).
  assert (LL : length l = (length A + length B)%nat) by (rewrite E at 1; apply app_length).
  replace (Nat.min _ _) with (length A) by lia.
  assert (Ea : nth (length A - 1) l d0 = last A d0).
  { rewrite E at 1. rewrite app_nth1 by lia. apply nth_last. }
  assert (Eb : nth (length A) l d0 = hd d0 B).
  { rewrite E at 1. rewrite app_nth2 by lia. rewrite Nat.sub_diag. now destruct B. }
  rewrite Ea, Eb. replace (Reqb _ _) with false; [reflexivity|]. symmetry. apply Reqb_false.
  pose proof (last_in A d0 HA) as I. apply filter_In in I. destruct I as [_ I]. apply Rltb_true in I.
  assert (J : In (hd d0 B) B) by (destruct B; [easy|now left]).
  unfold B in J at 2. apply in_app_or in J. destruct J as [J|J]; apply filter_In in J; destruct J as [_ J].
  - apply Reqb_true in J. lra.
  - apply Rltb_true in J. lra.
Qed.

Lemma eval_linear_first x l : StronglySorted fle l -> filter (below x) l = [] -> (2 <= length l)%nat ->
  eval_linear l x = let a := nth 0 l d0 in let b := nth 1 l d0 in
    if Reqb (fst a) (fst b) then None else Some (line_through a b x).
Proof.
  intros S H L. unfold eval_linear. rewrite count_lt, H. cbn [length].
  replace (Nat.min (Nat.max 1 0) (length l - 1)) with 1%nat by lia. reflexivity.
Qed.

Lemma line_eq a b x : fst a < fst b ->
  line_through a b x * (fst b - fst a) = snd a * (fst b - x) + snd b * (x - fst a).
Proof. intros H. unfold line_through. field. lra. Qed.
Lemma line_bounds a b x lo hi : fst a < fst b -> fst a <= x <= fst b ->
  lo <= snd a <= hi -> lo <= snd b <= hi -> lo <= line_through a b x <= hi.
Proof.
  intros H Hx Ha Hb. pose proof (line_eq a b x H) as E. set (w := line_through a b x) in *.
  split; apply Rmult_le_reg_r with (fst b - fst a); try lra; rewrite E; nra.
Qed.

(** ** the padded nodes *)
Definition raw (lat field : list R) (pole : R * R) : list node :=
  (90, fst pole) :: combine lat field ++ [(-90, snd pole)].

Section Nodes.
Variables (lat field : list R) (pole : R * R).
Hypothesis Hlen : length field = length lat.
Hypothesis Hlat : within_poles lat.
Let L := padded_nodes lat field pole.

Lemma combine_snoc {A B} (l : list A) (m : list B) a b : length l = length m ->
  combine (l ++ [a]) (m ++ [b]) = combine l m ++ [(a, b)].
Proof.
  revert m. induction l as [|x l IH]; intros [|y m] H; try easy. simpl in *. now rewrite IH by lia.
Qed.
Lemma L_raw : L = sort_nodes (raw lat field pole).
Proof. unfold L, padded_nodes, raw. cbn [combine]. now rewrite combine_snoc by lia. Qed.
Lemma L_sorted : StronglySorted fle L.
Proof. rewrite L_raw. apply sort_sorted. Qed.

Lemma in_combine_nth p : In p (combine lat field) <-> exists i, (i < length lat)%nat /\ p = (nth i lat 0, nth i field 0).
Proof.
  split.
  - intros H. apply (In_nth _ _ (0, 0)) in H. destruct H as [i [Hi E]]. rewrite combine_length in Hi.
    exists i. split; [lia|]. rewrite <- E. now rewrite combine_nth by auto.
  - intros [i [Hi ->]]. rewrite <- combine_nth by auto. apply nth_In. rewrite combine_length. lia.
Qed.
Lemma in_raw p : In p (raw lat field pole) <-> is_node lat field pole p.
Proof.
  unfold raw, is_node. cbn [In]. rewrite in_app_iff, in_combine_nth. cbn [In]. intuition.
Qed.
Lemma in_L p : In p L <-> is_node lat field pole p.
Proof.
  rewrite L_raw, <- in_raw. split; apply Permutation_in; [apply sort_perm|apply Permutation_sym, sort_perm].
Qed.
Lemma node_range p : is_node lat field pole p -> -90 <= fst p <= 90.
Proof.
  intros [->|[->|[i [Hi ->]]]]; cbn [fst]; [lra|lra|]. apply Hlat. now apply nth_In.
Qed.
Lemma node_n : is_node lat field pole (90, fst pole). Proof. now left. Qed.
Lemma node_s : is_node lat field pole (-90, snd pole). Proof. now right; left. Qed.

Lemma fn p f : In p (filter f L) -> is_node lat field pole p /\ f p = true.
Proof. intros H. apply filter_In in H. destruct H. now rewrite <- in_L. Qed.

Lemma below_ne x : -90 < x -> filter (below x) L <> [].
Proof.
  intros H E. assert (In (-90, snd pole) (filter (below x) L)).
  { apply filter_In. split; [apply in_L, node_s|]. now apply Rltb_true. }
  rewrite E in H0. easy.
Qed.
Lemma above_ne x : x < 90 -> filter (above x) L <> [].
Proof.
  intros H E. assert (In (90, fst pole) (filter (above x) L)).
  { apply filter_In. split; [apply in_L, node_n|]. now apply Rltb_true. }
  rewrite E in H0. easy.
Qed.
Lemma up_ne x : x <= 90 -> filter (at_ x) L ++ filter (above x) L <> [].
Proof.
  intros H E. assert (In (90, fst pole) (filter (at_ x) L ++ filter (above x) L)).
  { apply in_or_app. destruct (Req_dec x 90) as [->|Hne].
    - left. apply filter_In. split; [apply in_L, node_n|]. now apply Reqb_true.
    - right. apply filter_In. split; [apply in_L, node_n|]. apply Rltb_true. cbn [fst]. lra. }
  rewrite E in H0. easy.
Qed.

Lemma L_in_bounds x : -90 <= x <= 90 -> in_bounds L x = true.
Proof.
  intros H. pose proof L_sorted as S. unfold in_bounds.
  assert (N : L <> []). { intros E. pose proof (proj2 (in_L _) node_n) as I. now rewrite E in I. }
  assert (B1 : fst (hd d0 L) <= -90).
  { pose proof (proj2 (in_L _) node_s) as I. revert S I. destruct L as [|a t]; [easy|]. intros S I. cbn [hd].
    inversion S as [|? ? _ HF]; subst. rewrite Forall_forall in HF. unfold fle in HF.
    destruct I as [->|I]; [cbn [fst]; lra|]. apply (HF _ I). }
  assert (B2 : 90 <= fst (last L d0)).
  { pose proof (proj2 (in_L _) node_n) as I. rewrite (sorted_split 90 L S).
    replace (filter (above 90) L) with (@nil node).
    - rewrite app_nil_r. assert (NE : filter (at_ 90) L <> []).
      { intros E. assert (X : In (90, fst pole) (filter (at_ 90) L)) by (apply filter_In; split; [auto|now apply Reqb_true]).
        now rewrite E in X. }
      rewrite last_app by auto. pose proof (last_in _ d0 NE) as J. apply fn in J. destruct J as [_ J].
      apply Reqb_true in J. lra.
    - symmetry. apply filter_nil. intros a Ha. apply Rltb_false. apply in_L, node_range in Ha. lra. }
  apply andb_true_intro. split; apply Rleb_true; lra.
Qed.

(** the 1D evaluation *)
Lemma np_node_or_line x : -90 <= x <= 90 ->
  exists a b, is_node lat field pole a /\ is_node lat field pole b /\
   ((fst a = x /\ eval_np L x = snd a) \/
    (fst a < x < fst b /\ (forall c, is_node lat field pole c -> fst c <= fst a \/ fst b <= fst c)
     /\ filter (at_ x) L = [] /\ eval_np L x = line_through a b x)).
Proof.
  intros Hx. destruct (filter (at_ x) L) as [|z zs] eqn:E.
  - assert (Hx' : -90 < x < 90).
    { split.
      - destruct (Rlt_dec (-90) x); [auto|]. exfalso. assert (x = -90) by lra. subst.
        assert (X : In (-90, snd pole) (filter (at_ (-90)) L)) by (apply filter_In; split; [apply in_L, node_s|now apply Reqb_true]).
        now rewrite E in X.
      - destruct (Rlt_dec x 90); [auto|]. exfalso. assert (x = 90) by lra. subst.
        assert (X : In (90, fst pole) (filter (at_ 90) L)) by (apply filter_In; split; [apply in_L, node_n|now apply Reqb_true]).
        now rewrite E in X. }
    pose proof (below_ne x (proj1 Hx')) as NB. pose proof (above_ne x (proj2 Hx')) as NA.
    pose proof (last_in _ d0 NB) as IB.
    assert (IA : In (hd d0 (filter (above x) L)) (filter (above x) L)) by (destruct (filter (above x) L); [easy|now left]).
    exists (last (filter (below x) L) d0), (hd d0 (filter (above x) L)).
    destruct (fn _ _ IB) as [Q1 Q2]. destruct (fn _ _ IA) as [Q3 Q4]. apply Rltb_true in Q2. apply Rltb_true in Q4.
    split; [auto|]. split; [auto|]. right. split; [auto|]. split; [|split; [auto|]].
    + intros c Hc. apply in_L in Hc. pose proof L_sorted as S.
      rewrite (sorted_split x L S), E in Hc. cbn [app] in Hc.
      pose proof S as S'. rewrite (sorted_split x L S), E in S'. cbn [app] in S'.
      apply in_app_or in Hc.
      assert (SA : StronglySorted fle (filter (below x) L) /\ StronglySorted fle (filter (above x) L)).
      { clear - S'. revert S'. generalize (filter (below x) L) as A. generalize (filter (above x) L) as C.
        intros C A. induction A as [|a A IH]; cbn [app]; intros S; [split; [constructor|auto]|].
        inversion S as [|? ? S1 S2]; subst. destruct (IH S1). split; [|auto]. constructor; [auto|].
        apply Forall_app in S2. apply S2. }
      destruct SA as [SB SC]. destruct Hc as [Hc|Hc].
      * left. clear - SB Hc. revert SB Hc. generalize (filter (below x) L) as A. intros A.
        induction A as [|a A IH]; intros S H; [easy|]. inversion S as [|? ? S1 S2]; subst.
        destruct A as [|a' A]; [destruct H as [->|[]]; simpl; lra|].
        change (last (a :: a' :: A) d0) with (last (a' :: A) d0).
        destruct H as [->|H]; [|now apply IH]. rewrite Forall_forall in S2. apply S2. now apply last_in.
      * right. clear - SC Hc. revert SC Hc. generalize (filter (above x) L) as A. intros A S H.
        destruct A as [|a A]; [easy|]. inversion S as [|? ? S1 S2]; subst. rewrite Forall_forall in S2.
        cbn [hd]. destruct H as [->|H]; [lra|]. apply (S2 _ H).
    + apply eval_np_between; auto using L_sorted.
  - assert (NE : filter (at_ x) L <> []) by now rewrite E.
    pose proof (last_in _ d0 NE) as I. exists (last (filter (at_ x) L) d0), (last (filter (at_ x) L) d0).
    destruct (fn _ _ I) as [Q1 Q2]. apply Reqb_true in Q2.
    split; [auto|]. split; [auto|]. left. split; [auto|]. now apply eval_np_at; [apply L_sorted|].
Qed.

Lemma np_bounds x : -90 <= x <= 90 -> no_overshoot lat field pole (eval_np L x).
Proof.
  intros Hx lo hi H. destruct (np_node_or_line x Hx) as [a [b [Ha [Hb [[E1 ->]|[E1 [_ [_ ->]]]]]]]].
  - now apply H.
  - apply line_bounds; try (now apply H); lra.
Qed.

Lemma np_at x : filter (at_ x) (raw lat field pole) <> [] ->
  eval_np L x = snd (last (filter (at_ x) (raw lat field pole)) d0).
Proof.
  intros H. rewrite eval_np_at by (rewrite ?L_raw, ?sort_stable; auto using sort_sorted).
  now rewrite L_raw, sort_stable.
Qed.

Lemma np_south : eval_np L (-90) = snd pole.
Proof.
  assert (E : filter (at_ (-90)) (raw lat field pole)
    = filter (at_ (-90)) ((90, fst pole) :: combine lat field) ++ [(-90, snd pole)]).
  { unfold raw. rewrite (app_comm_cons (combine lat field) [(-90, snd pole)] (90, fst pole)), filter_app.
    f_equal. apply filter_all. intros a [<-|[]]. now apply Reqb_true. }
  rewrite np_at; rewrite E.
  - rewrite last_app by easy. reflexivity.
  - intros X. apply app_eq_nil in X. easy.
Qed.

Hypothesis Hnd : NoDup lat.
Lemma filter_data x i : (i < length lat)%nat -> nth i lat 0 = x ->
  filter (at_ x) (combine lat field) = [(nth i lat 0, nth i field 0)].
Proof.
  clear Hlat L. revert field Hlen Hnd i. induction lat as [|a l IH]; intros fl Hl Hn i Hi Hx; [simpl in Hi; lia|].
  destruct fl as [|b fl]; [easy|]. inversion Hn as [|? ? Hn1 Hn2]; subst. cbn [combine filter]. unfold at_ at 1. cbn [fst].
  destruct i as [|i].
  - cbn [nth] in *. replace (Reqb a a) with true by (symmetry; now apply Reqb_true).
    f_equal. apply filter_nil. intros [u w] Hin. apply Reqb_false. cbn [fst]. intros ->.
    apply in_combine_l in Hin. contradiction.
  - cbn [nth length] in *. replace (Reqb a (nth i l 0)) with false.
    + apply IH; auto; lia.
    + symmetry. apply Reqb_false. intros ->. apply Hn1. apply nth_In. lia.
Qed.

Lemma np_data i : (i < length lat)%nat -> -90 < nth i lat 0 -> eval_np L (nth i lat 0) = nth i field 0.
Proof.
  intros Hi Hm. set (x := nth i lat 0).
  assert (E : filter (at_ x) (raw lat field pole)
    = filter (at_ x) [(90, fst pole)] ++ [(nth i lat 0, nth i field 0)]).
  { unfold raw. rewrite (app_comm_cons (combine lat field) [(-90, snd pole)] (90, fst pole)), filter_app.
    change ((90, fst pole) :: combine lat field) with ([(90, fst pole)] ++ combine lat field).
    rewrite filter_app, (filter_data x i) by auto. rewrite (filter_nil _ [(-90, snd pole)]).
    - now rewrite app_nil_r.
    - intros a [<-|[]]. apply Reqb_false. cbn [fst]. unfold x. lra. }
  rewrite np_at; rewrite E.
  - rewrite last_app by easy. reflexivity.
  - intros X. apply app_eq_nil in X. easy.
Qed.

Lemma np_north : ~ In 90 lat -> eval_np L 90 = fst pole.
Proof.
  intros H.
  assert (E : filter (at_ 90) (raw lat field pole) = [(90, fst pole)]).
  { unfold raw. cbn [filter]. unfold at_ at 1. cbn [fst]. replace (Reqb 90 90) with true by (symmetry; now apply Reqb_true).
    f_equal. apply filter_nil. intros [u w] Hin. apply Reqb_false. cbn [fst]. apply in_app_or in Hin.
    destruct Hin as [Hin|[Hin|[]]].
    - intros ->. apply in_combine_l in Hin. contradiction.
    - injection Hin as <- _. lra. }
  rewrite np_at; rewrite E; easy.
Qed.

(** unambiguous nodes *)
Hypothesis Hinn : ~ In 90 lat.
Hypothesis Hins : ~ In (-90) lat.
Lemma node_unique p q : is_node lat field pole p -> is_node lat field pole q -> fst p = fst q -> p = q.
Proof.
  assert (NI : forall i, (i < length lat)%nat -> nth i lat 0 <> 90 /\ nth i lat 0 <> -90).
  { intros i Hi. split; intros E; [apply Hinn|apply Hins]; rewrite <- E; now apply nth_In. }
  intros [->|[->|[i [Hi ->]]]] [->|[->|[k [Hk ->]]]]; cbn [fst]; intros E; try reflexivity; try lra.
  - destruct (NI _ Hk); congruence.
  - destruct (NI _ Hk); congruence.
  - destruct (NI _ Hi); congruence.
  - destruct (NI _ Hi); congruence.
  - rewrite NoDup_nth in Hnd. rewrite (Hnd i k Hi Hk E). reflexivity.
Qed.

Lemma node_on_line x a w : is_node lat field pole a -> fst a = x -> w = snd a -> on_line lat field pole x w.
Proof.
  intros Ha Ex ->. intros c d Hc Hd Hx Hlt Hno.
  destruct (Req_dec (fst c) x) as [E|E].
  - rewrite (node_unique a c) by (auto; lra). rewrite <- E. ring.
  - destruct (Req_dec (fst d) x) as [E'|E'].
    + rewrite (node_unique a d) by (auto; lra). rewrite <- E'. ring.
    + exfalso. apply (Hno a Ha). lra.
Qed.
Lemma line_on_line x a b w : is_node lat field pole a -> is_node lat field pole b -> fst a < x < fst b ->
  (forall c, is_node lat field pole c -> fst c <= fst a \/ fst b <= fst c) -> w = line_through a b x ->
  on_line lat field pole x w.
Proof.
  intros Ha Hb Hx Hno ->. intros c d Hc Hd Hx' Hlt Hno'.
  assert (Ec : c = a).
  { apply node_unique; auto. destruct (Hno c Hc); [|lra].
    destruct (Req_dec (fst c) (fst a)); [auto|]. exfalso. apply (Hno' a Ha). lra. }
  assert (Ed : d = b).
  { apply node_unique; auto. destruct (Hno d Hd); [lra|].
    destruct (Req_dec (fst d) (fst b)); [auto|]. exfalso. apply (Hno' b Hb). lra. }
  subst. apply line_eq. lra.
Qed.
Lemma np_on_line x : -90 <= x <= 90 -> on_line lat field pole x (eval_np L x).
Proof.
  intros Hx. destruct (np_node_or_line x Hx) as [a [b [Ha [Hb [[E1 E2]|[E1 [E2 [_ E3]]]]]]]].
  - now apply node_on_line with a.
  - now apply line_on_line with a b.
Qed.
End Nodes.

(** ** the 2D evaluation *)
Section Nodes2.
Variables (lat field : list R) (pole : R * R).
Hypothesis Hlen : length field = length lat.
Hypothesis Hlat : within_poles lat.
Let L := padded_nodes lat field pole.
Let LS := L_sorted lat field pole Hlen.

Lemma lin_node_or_line x : -90 < x <= 90 ->
  exists a b, is_node lat field pole a /\ is_node lat field pole b
    /\ fst a < x <= fst b /\ (forall c, is_node lat field pole c -> fst c <= fst a \/ fst b <= fst c)
    /\ (fst b = x -> b = hd d0 (filter (at_ x) (raw lat field pole)))
    /\ eval_linear L x = Some (line_through a b x).
Proof.
  intros Hx.
  pose proof (below_ne lat field pole Hlen x (proj1 Hx)) as NB.
  pose proof (up_ne lat field pole Hlen x (proj2 Hx)) as NU.
  pose proof (last_in _ d0 NB) as IB.
  set (B := filter (at_ x) L ++ filter (above x) L) in *.
  change (B <> []) in NU. change (filter (below x) L <> []) in NB.
  assert (IA : In (hd d0 B) B) by (clearbody B; destruct B; [easy|now left]).
  exists (last (filter (below x) L) d0), (hd d0 B).
  destruct (fn _ _ _ Hlen _ _ IB) as [Q1 Q2]. apply Rltb_true in Q2.
  assert (Q3 : is_node lat field pole (hd d0 B) /\ x <= fst (hd d0 B)).
  { revert IA. generalize (hd d0 B). intros b IA. unfold B in IA. apply in_app_or in IA. destruct IA as [I|I]; apply (fn _ _ _ Hlen) in I; destruct I as [I1 I2]; split; auto.
    - apply Reqb_true in I2. lra.
    - apply Rltb_true in I2. lra. }
  split; [auto|]. split; [apply Q3|]. split; [split; [exact Q2|apply Q3]|]. split; [|split].
  - intros c Hc. apply (in_L _ _ _ Hlen) in Hc. change (In c L) in Hc.
    rewrite (sorted_split x L LS) in Hc. change (In c (filter (below x) L ++ B)) in Hc.
    assert (S' : StronglySorted fle L) by exact LS. rewrite (sorted_split x L LS) in S'. fold B in S'.
    apply in_app_or in Hc.
    assert (SA : StronglySorted fle (filter (below x) L) /\ StronglySorted fle B).
    { clear - S'. revert S'. generalize (filter (below x) L) as A. generalize B as C.
      intros C A. induction A as [|a A IH]; cbn [app]; intros S; [split; [constructor|auto]|].
      inversion S as [|? ? S1 S2]; subst. destruct (IH S1). split; [|auto]. constructor; [auto|].
      apply Forall_app in S2. apply S2. }
    destruct SA as [SB SC]. destruct Hc as [Hc|Hc].
    + left. clear - SB Hc. revert SB Hc. generalize (filter (below x) L) as A. intros A.
      induction A as [|a A IH]; intros S H; [easy|]. inversion S as [|? ? S1 S2]; subst.
      destruct A as [|a' A]; [destruct H as [->|[]]; simpl; lra|].
      change (last (a :: a' :: A) d0) with (last (a' :: A) d0).
      destruct H as [->|H]; [|now apply IH]. rewrite Forall_forall in S2. apply S2. now apply last_in.
    + right. clear - SC Hc. revert SC Hc. generalize B as A. intros A S H.
      destruct A as [|a A]; [easy|]. inversion S as [|? ? S1 S2]; subst. rewrite Forall_forall in S2.
      cbn [hd]. destruct H as [->|H]; [lra|]. apply (S2 _ H).
  - intros E. rewrite <- (sort_stable x), <- L_raw by auto. fold L.
    unfold B in *. destruct (filter (at_ x) L) as [|z zs]; [|reflexivity].
    exfalso. cbn [app] in *. apply fn in IA; auto. destruct IA as [_ IA]. apply Rltb_true in IA. lra.
  - apply eval_linear_inside; auto.
Qed.

Lemma lin_defined x : -90 < x <= 90 -> exists w, eval_linear L x = Some w /\ no_overshoot lat field pole w.
Proof.
  intros Hx. destruct (lin_node_or_line x Hx) as [a [b [Ha [Hb [H1 [_ [_ H2]]]]]]].
  eexists. split; [exact H2|]. intros lo hi H. apply line_bounds; try (now apply H); lra.
Qed.

Lemma lin_north : eval_linear L 90 = Some (fst pole).
Proof.
  destruct (lin_node_or_line 90 ltac:(lra)) as [a [b [Ha [Hb [H1 [_ [H2 ->]]]]]]].
  pose proof (node_range _ _ _ Hlat _ Hb).
  assert (E : b = (90, fst pole)).
  { rewrite H2 by lra. unfold raw. cbn [filter]. unfold at_ at 1. cbn [fst].
    replace (Reqb 90 90) with true by (symmetry; now apply Reqb_true). reflexivity. }
  rewrite E in *. f_equal. cbn [fst] in H1. unfold line_through. cbn [fst snd]. field. lra.
Qed.

Lemma Lab : exists a b t, L = a :: b :: t.
Proof.
  unfold L. rewrite L_raw by auto.
  pose proof (Permutation_length (sort_perm (raw lat field pole))) as E.
  unfold raw in E at 2. cbn [length] in E. rewrite app_length in E. cbn [length] in E.
  destruct (sort_nodes (raw lat field pole)) as [|a [|b t]]; cbn [length] in E; try lia. eauto.
Qed.

Lemma below_m90 : filter (below (-90)) L = [].
Proof.
  apply filter_nil. intros a Ha. apply Rltb_false. apply (in_L _ _ _ Hlen) in Ha.
  apply (node_range _ _ _ Hlat) in Ha. lra.
Qed.

Lemma lin_south : eval_linear L (-90) = if in_dec Req_EM_T (-90) lat then None else Some (snd pole).
Proof.
  destruct Lab as [a [b [t E]]].
  rewrite eval_linear_first; [|exact LS|apply below_m90|rewrite E; simpl; lia].
  rewrite E. cbn [nth].
  pose proof (sorted_split (-90) L LS) as SP. rewrite below_m90 in SP. cbn [app] in SP.
  assert (EQ : filter (at_ (-90)) L = filter (at_ (-90)) (combine lat field) ++ [(-90, snd pole)]).
  { unfold L. rewrite L_raw, sort_stable by auto. unfold raw.
    cbn [filter]. unfold at_ at 1. cbn [fst]. replace (Reqb 90 (-90)) with false by (symmetry; apply Reqb_false; lra).
    rewrite filter_app. f_equal. cbn [filter]. unfold at_. cbn [fst].
    now replace (Reqb (-90) (-90)) with true by (symmetry; now apply Reqb_true). }
  destruct (in_dec Req_EM_T (-90) lat) as [I|NI].
  - replace (Reqb (fst a) (fst b)) with true; [reflexivity|]. symmetry. apply Reqb_true.
    apply (In_nth _ _ 0) in I. destruct I as [i [Hi Ei]].
    assert (IN : In (nth i lat 0, nth i field 0) (filter (at_ (-90)) (combine lat field))).
    { apply filter_In. split; [|now apply Reqb_true]. rewrite <- combine_nth by auto. apply nth_In. rewrite combine_length. lia. }
    destruct (filter (at_ (-90)) (combine lat field)) as [|u us]; [easy|].
    rewrite EQ in SP. rewrite E in SP, EQ.
    destruct us as [|u' us]; cbn [app] in SP; injection SP as -> -> _.
    + assert (X : In u (filter (at_ (-90)) L)) by (rewrite E, EQ; now left).
      apply filter_In in X. destruct X as [_ X]. apply Reqb_true in X. exact X.
    + assert (X : In u (filter (at_ (-90)) L)) by (rewrite E, EQ; now left).
      assert (Y : In u' (filter (at_ (-90)) L)) by (rewrite E, EQ; right; now left).
      apply filter_In in X. apply filter_In in Y. destruct X as [_ X]. destruct Y as [_ Y].
      apply Reqb_true in X. apply Reqb_true in Y. lra.
  - rewrite (filter_nil _ (combine lat field)) in EQ.
    + cbn [app] in EQ. rewrite EQ in SP. cbn [app] in SP.
      remember (filter (above (-90)) L) as C eqn:EC. rewrite E in SP. injection SP as -> SP.
      assert (Ib : In b (filter (above (-90)) L)) by (rewrite <- EC, <- SP; now left).
      apply filter_In in Ib. destruct Ib as [_ Ib]. apply Rltb_true in Ib.
      replace (Reqb _ _) with false by (symmetry; apply Reqb_false; cbn [fst]; lra).
      f_equal. unfold line_through. cbn [fst snd]. field. lra.
    + intros [u w] Hin. apply Reqb_false. cbn [fst]. intros ->. apply in_combine_l in Hin. contradiction.
Qed.

Hypothesis Hnd : NoDup lat.
Hypothesis Hinn : ~ In 90 lat.
Hypothesis Hins : ~ In (-90) lat.
Lemma lin_on_line x : -90 <= x <= 90 -> exists w, eval_linear L x = Some w /\ on_line lat field pole x w.
Proof.
  intros Hx. destruct (Req_dec x (-90)) as [->|Hne].
  - exists (snd pole). split.
    + rewrite lin_south. now destruct (in_dec Req_EM_T (-90) lat).
    + apply node_on_line with (-90, snd pole); auto. apply node_s.
  - destruct (lin_node_or_line x ltac:(lra)) as [a [b [Ha [Hb [H1 [Hno [_ E]]]]]]].
    eexists. split; [exact E|].
    destruct (Req_dec (fst b) x) as [Eb|Eb].
    + apply node_on_line with b; auto. unfold line_through. rewrite <- Eb. field. lra.
    + apply line_on_line with a b; auto. lra.
Qed.
End Nodes2.
