(** The zonalized profile (Grid.zonalize with interpolation): theorems. *)
From Coq Require Export String.
From Verif Require Import Base Spec_Grid Spec_Quad Spec_Interp Spec_Falwa Model_Grid Model_Quad Proofs_Base Proofs_Grid Proofs_Interp Proofs_Quad Proofs_Zonalize Proofs_Falwa Proofs_Profile.
From Verif Require Import Model_Region.
From Coq Require Import List Lia Lra.
Open Scope R_scope.

Definition nondecreasing (l : vec) : Prop := forall i j, (i <= j)%nat -> (j < length l)%nat -> nth i l 0 <= nth j l 0.
Definition all_between (lo hi : R) (l : vec) : Prop := forall x, In x l -> lo <= x <= hi.
(** level arguments that describe contours in the range of the field *)
Definition levels_in_range (lo hi : R) (levels : levels_arg) : Prop :=
  valid_levels levels /\ match levels with LArr v => nondecreasing v /\ all_between lo hi v | _ => True end.

Lemma auto_weak lo hi n : lo <= hi -> nondecreasing (auto_levels lo hi n) /\ all_between lo hi (auto_levels lo hi n).
Proof.
  intros H. destruct (Rle_lt_or_eq_dec _ _ H) as [L|E].
  - destruct (auto_levels_facts lo hi n L) as [Q1 [Q2 [Q3 _]]]. split.
    + intros i j Hij Hj. destruct (Nat.eq_dec i j) as [->|N]; [lra|]. apply Rlt_le, Q2; [lia|exact Hj].
    + intros x Hx. specialize (Q3 x Hx). lra.
  - subst hi. assert (A : forall x, In x (auto_levels lo lo n) -> x = lo).
    { intros x Hx. rewrite auto_levels_tab in Hx. apply tab_in in Hx as [k [_ ->]]. field. }
    split; [|intros x Hx; rewrite (A x Hx); lra]. intros i j Hij Hj.
    rewrite (A (nth i _ 0)), (A (nth j _ 0)) by (apply nth_In; lia). lra.
Qed.

(** ** C94 *)
(** The profile decreases from the largest value of the field at the north pole
    to the smallest at the south pole, and at every latitude it separates the
    contours that enclose less area than the polar cap from those that enclose
    more. *)
Theorem C94_profile : forall res rs om nt g, mk_grid res rs om nt = Ok g ->
  forall nc f levels qd lo hi, known_method qd -> (0 < nc <= g_nlon g)%nat -> shaped (g_nlat g) nc f ->
  extremes (g_nlat g) nc f lo hi -> levels_in_range lo hi levels ->
  exists q z, zonalize g f levels qd = Ok z /\ length z = g_nlat g
  /\ (exists y, zonalize_contours g f levels qd = Ok (q, y))
  /\ (forall i, (S i < g_nlat g)%nat -> nth (S i) z 0 <= nth i z 0)
  /\ nth 0 z 0 = hi /\ nth (g_nlat g - 1) z 0 = lo /\ all_between lo hi z
  /\ forall c i, In c q -> (i < g_nlat g)%nat -> exists a,
       quad g (A2 (mat_of (g_nlat g) nc (fun _ _ => 1))) (Some (mat_of (g_nlat g) nc (fun i j => mget f i j - c))) qd = Ok a
       /\ let cap := cap_area rs (deg2rad (nth i (g_lat g) 0)) in
          (a * (INR (g_nlon g) / INR nc) < cap -> nth i z 0 <= c) /\ (cap < a * (INR (g_nlon g) / INR nc) -> c <= nth i z 0).
Proof.
  intros res rs om nt g Hg nc f levels qd lo hi Hm Hnc Sf Ex [V LR].
  destruct (mmin_mmax _ _ f lo hi Sf Ex) as [Emin Emax]. pose proof (nlat_gt1' _ _ _ _ _ Hg) as N1.
  assert (LH : lo <= hi) by (destruct Ex as [B [[i [j [Hi [Hj <-]]]] _]]; apply B; assumption).
  set (q := zonalize_levels g lo hi levels qd).
  assert (Q : nondecreasing q /\ all_between lo hi q).
  { unfold q. destruct levels as [|n|v]; cbn [zonalize_levels]; [now apply auto_weak|now apply auto_weak|exact LR]. }
  destruct Q as [Q1 Q2].
  assert (NE : q <> []) by (apply (valid_levels_ne _ _ _ _ _ Hg); exact V).
  pose proof (zonalize_form _ _ _ _ _ Hg nc f levels qd Hm Hnc Sf) as ZF. cbn zeta in ZF. rewrite Emin, Emax in ZF. fold q in ZF. specialize (ZF NE).
  fold (farea res rs g qd nc f) in ZF. change (map _ q) with (map (fun t => eqlat1 g (farea res rs g qd nc f t)) q) in ZF.
  set (y := map (fun t => eqlat1 g (farea res rs g qd nc f t)) q) in *.
  assert (Ly : length q = length y) by (unfold y; now rewrite map_length).
  assert (Yn : forall i, (i < length q)%nat -> nth i y 0 = eqlat1 g (farea res rs g qd nc f (nth i q 0))) by (intros i Hi; unfold y; now rewrite (nth_map_lt _ _ _ 0 _)).
  assert (W : within_poles y).
  { intros x Hx. apply in_map_iff in Hx as [t [<- _]]. now apply (fy_spec _ _ _ _ _ Hg). }
  assert (Y1 : forall i j, (i <= j)%nat -> (j < length q)%nat -> nth i y 0 <= nth j y 0).
  { intros i j Hij Hj. rewrite !Yn by lia. apply (fy_mono _ _ _ _ _ Hg); [exact Hm|exact Hnc|]. now apply Q1. }
  assert (R1 : forall i, (i < length q)%nat -> lo <= nth i q 0 <= hi) by (intros i Hi; apply Q2, nth_In, Hi).
  assert (Yh : forall i, (i < length q)%nat -> nth i q 0 < hi -> nth i y 0 < 90).
  { intros i Hi H. rewrite Yn by exact Hi. destruct Ex as [_ [_ [a [b [Ha [Hb E]]]]]]. apply (fy_lt _ _ _ _ _ Hg qd nc f Hm Hnc _ a b Ha Hb). now rewrite E. }
  assert (Yl : forall i, (i < length q)%nat -> lo < nth i q 0 -> -90 < nth i y 0).
  { intros i Hi H. rewrite Yn by exact Hi. destruct Ex as [_ [[a [b [Ha [Hb E]]]] _]]. apply (fy_gt _ _ _ _ _ Hg qd nc f Hm Hnc _ a b Ha Hb). now rewrite E. }
  pose proof (lat_poles g) as LP.
  assert (B : forall i, (i < g_nlat g)%nat -> -90 <= nth i (g_lat g) 0 <= 90) by (intros i Hi; apply LP, nth_In; now rewrite lat_length).
  set (L := padded_nodes y q (hi, lo)).
  assert (EZ : zonalize g f levels qd = Ok (map (eval_np L) (g_lat g))).
  { unfold zonalize. rewrite ZF. cbn [bind fst snd]. unfold interpolate_meridional_1d, interp1d_1d. rewrite Ly, Nat.eqb_refl. cbn [negb]. rewrite Emax, Emin.
    replace (forallb _ (g_lat g)) with true; [reflexivity|]. symmetry. apply forallb_forall. intros x Hx. apply L_in_bounds; [exact Ly|exact W|now apply LP]. }
  assert (Zn : forall i, (i < g_nlat g)%nat -> nth i (map (eval_np L) (g_lat g)) 0 = eval_np L (nth i (g_lat g) 0)).
  { intros i Hi. apply (nth_map_lt (eval_np L)). now rewrite lat_length. }
  assert (L0 : nth 0 (g_lat g) 0 = 90) by (rewrite lat_nth by lia; cbn [INR]; lra).
  assert (L9 : nth (g_nlat g - 1) (g_lat g) 0 = -90).
  { rewrite lat_nth by lia. assert (0 < INR (g_nlat g - 1)) by (apply lt_0_INR; lia). field. lra. }
  exists q, (map (eval_np L) (g_lat g)). split; [exact EZ|]. split; [rewrite map_length; apply lat_length|]. split; [exists y; exact ZF|].
  split; [|split; [|split; [|split]]].
  - intros i Hi. rewrite !Zn by lia. apply (profile_monotone y q hi lo Ly W Q1 Y1 R1 LH Yh Yl); try apply B; try lia.
    apply Rlt_le, (lat_decr _ _ _ _ _ Hg), Hi.
  - rewrite Zn, L0 by lia. apply (profile_north y q hi lo Ly Q1 R1 LH Yh Yl).
  - rewrite Zn, L9 by lia. apply (np_south y q (hi, lo) Ly).
  - intros x Hx. apply in_map_iff in Hx as [t [<- Ht]]. apply (profile_range y q hi lo Ly R1 LH). now apply LP.
  - intros c i Hc Hi. exists (carea res rs g qd nc f c). split; [apply (quad_carea _ _ _ _ _ Hg); [exact Hm|lia]|].
    cbv zeta. fold (farea res rs g qd nc f c). rewrite Zn by exact Hi. apply (In_nth _ _ 0) in Hc as [k [Hk <-]].
    destruct (fy_cap _ _ _ _ _ Hg qd nc f Hm Hnc (nth k q 0) _ (B i Hi)) as [C1 C2]. rewrite <- Yn in C1, C2 by exact Hk.
    destruct (profile_brackets y q hi lo Ly W Q1 Y1 R1 LH Yh Yl _ k (B i Hi) Hk) as [P1 P2]. split; intros H; [apply P2, C2, H|apply P1, C1, H].
Qed.
Print Assumptions C94_profile.
(** A constant field has a constant profile *)
Theorem C94_constant : forall res rs om nt g, mk_grid res rs om nt = Ok g ->
  forall nc c qd, known_method qd -> (0 < nc <= g_nlon g)%nat ->
  zonalize g (mat_of (g_nlat g) nc (fun _ _ => c)) LNone qd = Ok (repeat c (g_nlat g)).
Proof.
  intros res rs om nt g Hg nc c qd Hm Hnc. pose proof (nlat_gt1' _ _ _ _ _ Hg) as N1.
  destruct (C94_profile res rs om nt g Hg nc (mat_of (g_nlat g) nc (fun _ _ => c)) LNone qd c c Hm Hnc (shaped_mat_of _ _ _)) as [q [z [E [L [_ [_ [_ [_ [B _]]]]]]]]].
  - split; [intros i j Hi Hj; rewrite mget_mat_of by assumption; lra|]. split; exists 0%nat, 0%nat; rewrite mget_mat_of by lia; repeat split; lia.
  - split; exact I.
  - rewrite E. f_equal. apply (list_eq_nth 0); [rewrite repeat_length; exact L|]. intros i Hi.
    assert (R : forall n k, (k < n)%nat -> nth k (repeat c n) 0 = c) by (induction n as [|n IH]; intros [|k] Hk; cbn; try lia; auto; apply IH; lia).
    rewrite R by lia. specialize (B (nth i z 0) (nth_In _ _ Hi)). lra.
Qed.
Print Assumptions C94_constant.
(** Contours above the maximum of the field are not removed: the profile then
    ends with this value at the north pole. *)
Theorem C94_outside : forall res rs om nt g, mk_grid res rs om nt = Ok g ->
  forall nc f qd lo hi c, known_method qd -> (0 < nc <= g_nlon g)%nat -> shaped (g_nlat g) nc f -> extremes (g_nlat g) nc f lo hi -> hi < c ->
  exists z, zonalize g f (LArr [c]) qd = Ok z /\ nth 0 z 0 = c.
Proof.
  intros res rs om nt g Hg nc f qd lo hi c Hm Hnc Sf Ex Hc. pose proof (nlat_gt1' _ _ _ _ _ Hg) as N1.
  destruct (mmin_mmax _ _ f lo hi Sf Ex) as [Emin Emax].
  assert (A : eqlat1 g (farea res rs g qd nc f c) = 90).
  { apply (eqlat_clamp _ _ _ _ _ Hg). unfold farea, carea. apply Req_le.
    rewrite (tab_ext nc _ (fun _ => 0)); [rewrite Rsum_tab_const; ring|]. intros j Hj.
    assert (Z : forall i, (i < g_nlat g)%nat -> Rleb 0 (mget f i j - c) = false).
    { intros i Hi. apply Rleb_false. destruct Ex as [B _]. specialize (B i j Hi Hj). lra. }
    unfold cq. destruct (is_boxcount qd).
    - rewrite (tab_ext _ _ (fun _ => 0)); [rewrite Rsum_tab_const; unfold Rdiv; ring|]. intros i Hi. now rewrite Z.
    - rewrite (tab_ext _ _ (fun _ => 0)); [rewrite Rsum_tab_const; ring|]. intros i Hi. unfold sg, seg_trapz. cbn [fst snd]. rewrite !Z by lia. reflexivity. }
  pose proof (zonalize_form _ _ _ _ _ Hg nc f (LArr [c]) qd Hm Hnc Sf ltac:(discriminate)) as ZF. cbn [map zonalize_levels] in ZF.
  fold (farea res rs g qd nc f c) in ZF. rewrite A in ZF.
  assert (W : within_poles [90]) by (intros x [<-|[]]; lra).
  eexists. split.
  - unfold zonalize. rewrite ZF. cbn [bind fst snd]. unfold interpolate_meridional_1d, interp1d_1d. cbn [length Nat.eqb negb].
    replace (forallb _ (g_lat g)) with true; [reflexivity|]. symmetry. apply forallb_forall. intros x Hx. apply L_in_bounds; [reflexivity|exact W|exact (lat_poles g x Hx)].
  - rewrite (nth_map_lt _ _ _ 0 _) by (rewrite lat_length; lia).
    replace (nth 0 (g_lat g) 0) with 90 by (rewrite lat_nth by lia; cbn [INR]; lra).
    rewrite (np_at [90] [c] _ eq_refl); unfold raw; cbn [combine app filter]; unfold at_; cbn [fst snd];
      replace (Reqb 90 90) with true by (symmetry; now apply Reqb_true); replace (Reqb (-90) 90) with false by (symmetry; apply Reqb_false; lra); [reflexivity|discriminate].
Qed.
Print Assumptions C94_outside.
Example C94_nonvacuous : exists g f, mk_grid 90 1 0 None = Ok g /\ shaped (g_nlat g) 2 f /\ extremes (g_nlat g) 2 f 0 2 /\ (0 < 2 <= g_nlon g)%nat /\ known_method "sptrapz"
  /\ levels_in_range 0 2 LNone /\ levels_in_range 0 2 (LArr [1 / 2; 1; 3 / 2]).
Proof.
  exists (gridA 1), (mat_of 3 2 (fun i j => INR i)). split; [apply gridA_ok; lra|].
  split; [apply shaped_mat_of|]. split; [split; [|split]|split; [cbn; lia|split; [now right|split]]].
  - intros i j Hi Hj. rewrite mget_mat_of by auto. simpl in Hi. split; [apply pos_INR|]. destruct i as [|[|[|i]]]; simpl; try lra. lia.
  - exists 0%nat, 0%nat. rewrite mget_mat_of by lia. simpl. repeat split; lia.
  - exists 2%nat, 0%nat. rewrite mget_mat_of by lia. simpl. repeat split; try lia; lra.
  - split; exact I.
  - split; [discriminate|]. split.
    + intros i j Hij Hj. cbn in Hj. destruct j as [|[|[|j]]]; [| | |lia]; destruct i as [|[|[|i]]]; try lia; cbn; lra.
    + intros x [<-|[<-|[<-|[]]]]; lra.
Qed.
