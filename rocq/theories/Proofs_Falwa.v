(** Lemmas on finite-amplitude local wave activity. *)
From Coq Require Export String.
From Verif Require Import Base Model_Grid Model_Quad Spec_Grid Spec_Region Spec_Quad Spec_Interp Spec_Falwa
  Proofs_Base Proofs_Grid Proofs_Region Proofs_Quad Proofs_Interp Proofs_Zonalize Model_Falwa Model_Region.
From Coquelicot Require Import Coquelicot.
From Coq Require Import List Permutation Sorted Lia Lra.
Open Scope R_scope.

Lemma np_cosd_pos y : -90 <= y <= 90 -> 0 < np_cosd y.
Proof.
  intros H. unfold np_cosd. destruct (Req_EM_T _ 0) as [E|E].
  - unfold cos_pole. apply Rdiv_lt_0_compat; [lra|apply pow_lt; lra].
  - assert (0 <= cos (deg2rad y)); [|lra]. apply cos_ge_0.
    + rewrite <- deg2rad_m90. apply (proj1 (deg2rad_le _ _)). lra.
    + rewrite <- deg2rad_90. apply (proj1 (deg2rad_le _ _)). lra.
Qed.

(** ** midpoints *)
Lemma midpoints_nth l k : (S k < length l)%nat -> nth k (midpoints l) 0 = / 2 * (nth k l 0 + nth (S k) l 0).
Proof.
  revert k. induction l as [|a [|b l] IH]; intros k H; cbn [length] in H; [lia|lia|].
  destruct k as [|k]; [reflexivity|].
  transitivity (nth k (midpoints (b :: l)) 0); [reflexivity|].
  rewrite IH by (cbn [length]; lia). reflexivity.
Qed.
Lemma midpoints_length l : length (midpoints l) = (length l - 1)%nat.
Proof. unfold midpoints. rewrite map_length. apply pairs_length. Qed.

(** ** The sort with a payload *)
Section Payload.
Context {B : Type}.
Fixpoint ginsert (p : R * B) (l : list (R * B)) : list (R * B) :=
  match l with
  | [] => p :: nil
  | q :: t => if Rleb (fst p) (fst q) then p :: l else q :: ginsert p t
  end.
Definition gsort (l : list (R * B)) : list (R * B) := fold_right ginsert [] l.
Lemma ginsert_in p l x : In x (ginsert p l) <-> x = p \/ In x l.
Proof.
  induction l as [|q t IH]; cbn [ginsert In]; [intuition|].
  destruct (Rleb (fst p) (fst q)); cbn [In]; [intuition|]. rewrite IH. intuition.
Qed.
Lemma gsort_in l x : In x (gsort l) <-> In x l.
Proof.
  induction l as [|p t IH]; [reflexivity|]. cbn [gsort fold_right]. rewrite ginsert_in. fold (gsort t).
  rewrite IH. cbn [In]. intuition.
Qed.
Variable h : B -> R.
Definition pj (p : R * B) : R * R := (fst p, h (snd p)).
Lemma ginsert_map p l : insert_node (pj p) (map pj l) = map pj (ginsert p l).
Proof.
  induction l as [|q t IH]; [reflexivity|]. cbn [map insert_node ginsert]. cbn [pj fst].
  destruct (Rleb (fst p) (fst q)); [reflexivity|]. cbn [map]. f_equal. exact IH.
Qed.
Lemma gsort_map l : sort_nodes (map pj l) = map pj (gsort l).
Proof.
  induction l as [|p t IH]; [reflexivity|]. cbn [map sort_nodes gsort fold_right].
  fold (sort_nodes (map pj t)). rewrite IH. apply ginsert_map.
Qed.
Lemma filter_pj f f' l : (forall p, f (pj p) = f' p) -> filter f (map pj l) = map pj (filter f' l).
Proof.
  intros H. induction l as [|p t IH]; [reflexivity|]. cbn [map filter]. rewrite H.
  destruct (f' p); cbn [map]; now rewrite IH.
Qed.
Lemma last_pj l d : last (map pj l) (pj d) = pj (last l d).
Proof.
  induction l as [|p [|q t] IH]; [reflexivity|reflexivity|].
  change (last (map pj (p :: q :: t)) (pj d)) with (last (map pj (q :: t)) (pj d)). exact IH.
Qed.
Lemma hd_pj l d : hd (pj d) (map pj l) = pj (hd d l).
Proof. now destruct l. Qed.
Lemma combine_pj l m : combine l (map h m) = map pj (combine l m).
Proof.
  revert m. induction l as [|a l IH]; intros [|b m]; [reflexivity..|]. cbn [map combine]. now rewrite IH.
Qed.
End Payload.

Lemma last_default {A} (l : list A) d d' : l <> [] -> last l d = last l d'.
Proof. intros H. destruct (exists_last H) as [m [a ->]]. now rewrite !last_last. Qed.
Lemma hd_default {A} (l : list A) d d' : l <> [] -> hd d l = hd d' l.
Proof. now destruct l. Qed.

(** ** zonal means *)
Lemma somes_tab n f : somes (tab n (fun j : nat => Some (f j : R))) = Some (tab n f).
Proof. revert f. induction n as [|n IH]; intros f; [reflexivity|]. rewrite !tab_S. cbn [somes]. now rewrite IH. Qed.
Lemma nan_mean_tab n f : nan_mean (tab n (fun j => Some (f j))) = Some (vmean (tab n f)).
Proof. unfold nan_mean. now rewrite somes_tab. Qed.
Lemma vmean_tab n f : vmean (tab n f) = Rsum (tab n f) / INR n.
Proof. unfold vmean. now rewrite tab_length. Qed.
Lemma vmean_line n a b fa fb x : (0 < n)%nat ->
  vmean (tab n (fun j => line_through (a, fa j) (b, fb j) x)) = line_through (a, vmean (tab n fa)) (b, vmean (tab n fb)) x.
Proof.
  intros Hn. rewrite !vmean_tab. unfold line_through. cbn [fst snd].
  assert (0 < INR n) by (apply lt_0_INR; lia).
  set (r := (x - a) / (b - a)).
  assert (E : forall j, (fb j - fa j) / (b - a) * (x - a) + fa j = r * fb j + (1 - r) * fa j)
    by (intros; unfold r, Rdiv; ring).
  rewrite (tab_ext n _ (fun j => r * fb j + (1 - r) * fa j)) by auto.
  rewrite Rsum_tab_plus, !Rsum_tab_scal. unfold r, Rdiv. ring.
Qed.
Lemma row_tab (n : nat) (r : vec) : length r = n -> tab n (fun j => nth j r 0) = r.
Proof.
  intros H. apply (list_eq_nth 0); rewrite tab_length; [auto|]. intros i Hi. now rewrite tab_nth.
Qed.

(** the zonal mean of the 2D interpolation and the 1D interpolation of the zonal mean *)
Section MeanInterp.
Variables (lat : vec) (field : mat) (nc : nat).
Hypothesis Hnc : (0 < nc)%nat.
Hypothesis Hlen : length field = length lat.
Hypothesis Hrow : Forall (fun r => length r = nc) field.
Hypothesis Hlat : within_poles lat.
Hypothesis Hsouth : ~ In (-90) lat.
Hypothesis Hdup : forall i k, (i < length lat)%nat -> (k < length lat)%nat -> nth i lat 0 = nth k lat 0 ->
  vmean (nth i field []) = vmean (nth k field []).
Hypothesis Hnorth : forall i, (i < length lat)%nat -> nth i lat 0 = 90 -> vmean (nth i field []) = 0.

Let zrow : vec := tab nc (fun _ => 0).
Let P : list (R * vec) := (90, zrow) :: combine lat field ++ (-90, zrow) :: nil.
Let S := gsort P.

Lemma vmean_zrow : vmean zrow = 0.
Proof. unfold zrow. rewrite vmean_tab, Rsum_tab_const. unfold Rdiv. ring. Qed.

Lemma col_nodes j : (j < nc)%nat -> padded_nodes lat (mcol field j) (0, 0) = map (pj (fun r => nth j r 0)) S.
Proof.
  intros Hj. unfold S. rewrite <- gsort_map.
  rewrite L_raw by (now rewrite mcol_length). f_equal. unfold raw, P. cbn [map].
  rewrite map_app. cbn [map]. unfold mcol. rewrite combine_pj. unfold pj at 2 4. cbn [fst snd].
  unfold zrow. now rewrite !tab_nth.
Qed.
Lemma mean_nodes : padded_nodes lat (map vmean field) (0, 0) = map (pj vmean) S.
Proof.
  unfold S. rewrite <- gsort_map. rewrite L_raw by (now rewrite map_length). f_equal. unfold raw, P. cbn [map].
  rewrite map_app. cbn [map]. rewrite combine_pj. unfold pj at 2 4. cbn [fst snd]. now rewrite !vmean_zrow.
Qed.

Lemma S_cases p : In p S -> p = (90, zrow) \/ p = (-90, zrow)
  \/ exists i, (i < length lat)%nat /\ p = (nth i lat 0, nth i field []).
Proof.
  unfold S. rewrite gsort_in. unfold P. intros [<-|H]; [now left|]. apply in_app_or in H.
  destruct H as [H|[<-|[]]]; [|now right; left]. right; right.
  apply (In_nth _ _ (0, nil)) in H. destruct H as [i [Hi E]]. rewrite combine_length in Hi.
  exists i. split; [lia|]. rewrite <- E. now rewrite combine_nth by auto.
Qed.
Lemma S_row p : In p S -> length (snd p) = nc.
Proof.
  intros H. destruct (S_cases p H) as [->|[->|[i [Hi ->]]]]; cbn [snd]; [apply tab_length|apply tab_length|].
  rewrite Forall_forall in Hrow. apply Hrow, nth_In. lia.
Qed.
Lemma S_dup p q : In p S -> In q S -> fst p = fst q -> vmean (snd p) = vmean (snd q).
Proof.
  assert (NS : forall i, (i < length lat)%nat -> nth i lat 0 <> -90)
    by (intros i Hi E; apply Hsouth; rewrite <- E; now apply nth_In).
  intros Hp Hq. destruct (S_cases p Hp) as [->|[->|[i [Hi ->]]]], (S_cases q Hq) as [->|[->|[k [Hk ->]]]];
    cbn [fst snd]; intros E; auto; rewrite ?vmean_zrow.
  - symmetry. apply Hnorth; auto.
  - symmetry in E. now apply NS in E.
  - apply Hnorth; auto.
  - now apply NS in E.
Qed.

Lemma mean_interp x : -90 <= x <= 90 ->
  nan_mean (tab nc (fun j => eval_linear (padded_nodes lat (mcol field j) (0, 0)) x))
  = Some (eval_np (padded_nodes lat (map vmean field) (0, 0)) x).
Proof.
  intros Hx.
  assert (Lj : forall j, length (mcol field j) = length lat) by (intros; now rewrite mcol_length).
  assert (Lm : length (map vmean field) = length lat) by now rewrite map_length.
  destruct (Req_dec x (-90)) as [->|Hne].
  { rewrite np_south by auto. cbn [snd].
    rewrite (tab_ext nc _ (fun _ => Some 0)).
    - rewrite nan_mean_tab. f_equal. apply vmean_zrow.
    - intros j Hj. rewrite lin_south by auto. now destruct (in_dec Req_EM_T (-90) lat). }
  assert (Hx' : -90 < x) by lra.
  set (d := (0, tab nc (fun _ => 0)) : R * vec).
  set (A := filter (fun p : R * vec => Rltb (fst p) x) S).
  set (B := filter (fun p : R * vec => Reqb (fst p) x) S).
  set (C := filter (fun p : R * vec => Rltb x (fst p)) S).
  assert (FA : forall h : vec -> R, filter (below x) (map (pj h) S) = map (pj h) A) by (intros; now apply filter_pj).
  assert (FB : forall h : vec -> R, filter (at_ x) (map (pj h) S) = map (pj h) B) by (intros; now apply filter_pj).
  assert (FC : forall h : vec -> R, filter (above x) (map (pj h) S) = map (pj h) C) by (intros; now apply filter_pj).
  assert (NA : A <> []).
  { intros E. pose proof (below_ne lat (map vmean field) (0, 0) Lm x Hx') as N.
    rewrite mean_nodes, FA, E in N. now apply N. }
  assert (NBC : B ++ C <> []).
  { intros E. pose proof (up_ne lat (map vmean field) (0, 0) Lm x ltac:(lra)) as N.
    rewrite mean_nodes, FB, FC, <- map_app, E in N. now apply N. }
  set (lo := last A d). set (hi := hd d (B ++ C)).
  assert (Ilo : In lo S /\ fst lo < x).
  { assert (I : In lo A) by now apply last_in. apply filter_In in I. destruct I as [I1 I2]. split; [auto|].
    now apply Rltb_true in I2. }
  assert (Ihi : In hi S /\ x <= fst hi).
  { assert (I : In hi (B ++ C)) by (unfold hi; destruct (B ++ C); [easy|now left]).
    apply in_app_or in I. destruct I as [I|I]; apply filter_In in I; destruct I as [I1 I2]; split; auto.
    - apply Reqb_true in I2. lra.
    - apply Rltb_true in I2. lra. }
  assert (E1 : forall j, (j < nc)%nat -> eval_linear (padded_nodes lat (mcol field j) (0, 0)) x
    = Some (line_through (fst lo, nth j (snd lo) 0) (fst hi, nth j (snd hi) 0) x)).
  { intros j Hj. pose proof (L_sorted lat (mcol field j) (0, 0) (Lj j)) as SS.
    rewrite (col_nodes j Hj) in *. rewrite eval_linear_inside; rewrite ?FA, ?FB, ?FC, <- ?map_app; auto.
    - f_equal. change (0, 0) with ((0, 0) : R * R).
      rewrite (last_default _ _ (pj (fun r => nth j r 0) d)) by (intros E; apply map_eq_nil in E; auto).
      rewrite (hd_default _ _ (pj (fun r => nth j r 0) d)) by (intros E; apply map_eq_nil in E; auto).
      now rewrite last_pj, hd_pj.
    - intros E; apply map_eq_nil in E; auto.
    - intros E; apply map_eq_nil in E; auto. }
  rewrite (tab_ext nc _ _ E1), nan_mean_tab. f_equal.
  rewrite vmean_line by auto. rewrite !row_tab by (apply S_row; tauto).
  pose proof (L_sorted lat (map vmean field) (0, 0) Lm) as SS. rewrite mean_nodes in *.
  destruct B as [|b B'] eqn:EB.
  - cbn [app] in *. rewrite eval_np_between; rewrite ?FA, ?FB, ?FC; auto.
    + rewrite (last_default _ _ (pj vmean d)) by (intros E; apply map_eq_nil in E; auto).
      rewrite (hd_default _ _ (pj vmean d)) by (intros E; apply map_eq_nil in E; auto).
      now rewrite last_pj, hd_pj.
    + intros E; apply map_eq_nil in E; auto.
    + intros E; apply map_eq_nil in E; auto.
  - rewrite eval_np_at; rewrite ?FB; auto; [|easy].
    rewrite (last_default _ _ (pj vmean d)) by easy. rewrite last_pj.
    assert (Il : In (last (b :: B') d) B) by (rewrite EB; now apply last_in).
    apply filter_In in Il. destruct Il as [Il1 Il2]. apply Reqb_true in Il2.
    assert (Ib : In b B) by (rewrite EB; now left). apply filter_In in Ib. destruct Ib as [Ib1 Ib2]. apply Reqb_true in Ib2.
    unfold hi. cbn [app hd]. unfold pj. cbn [snd].
    rewrite (S_dup _ b Il1 Ib1) by lra. unfold line_through. cbn [fst snd]. rewrite Ib2. field. lra.
Qed.
End MeanInterp.

(** ** Forms *)
Section Falwa.
Variables (res rs om : R) (nt : option Z) (g : grid).
Hypothesis Hg : mk_grid res rs om nt = Ok g.
Let F := mk_grid_facts _ _ _ _ _ Hg.
Let nlat := g_nlat g.
Let nlon := g_nlon g.
Let N0 := nlat_pos _ _ _ _ _ Hg.
Let N1 := nlat_gt1' _ _ _ _ _ Hg.
Lemma nlon_pos : (0 < g_nlon g)%nat.
Proof. pose proof (nlon_ge4 _ _ _ _ _ Hg) as H. apply INR_lt. simpl. lra. Qed.

Lemma lat_poles : within_poles (g_lat g).
Proof. intros x Hx. now apply lat_bounds in Hx. Qed.

Variables (pv : mat).
Hypothesis Hpv : shaped nlat nlon pv.

Definition Pc (q : R) (j i : nat) : R := mget pv i j - q.
Definition Wc (y : R) (i : nat) : R := nth i (g_lat g) 0 - y.
Definition wave (m : string) (q y : R) (j : nat) : R :=
  cq g m (Pc q j) (Pc q j) - cq g m (Pc q j) (Wc y).
Definition frow (m : string) (q y : R) : vec := tab nlon (fun j => wave m q y j / np_cosd y).

Lemma row_form m q y : known_method m -> falwa_row g pv m q y = Ok (frow m q y).
Proof.
  intros Hm. unfold falwa_row. cbv zeta.
  assert (H1 : shaped nlat nlon (mmap (fun x => x - q) pv)) by now apply shaped_mmap.
  assert (H2 : shaped nlat nlon (mmap (fun l => l - y) (g_lat2 g))) by (apply shaped_mmap, lat2_shaped).
  rewrite !(quad_meridional_form g m nlon) by (auto; unfold nlon; lia). cbn [bind].
  unfold vsub. rewrite map2_tab, tab_map. f_equal. unfold frow. apply tab_ext. intros j Hj. unfold Rdiv. f_equal.
  unfold wave. apply (f_equal2 Rminus); apply cq_ext; intros i Hi; unfold Pc, Wc;
    rewrite (mget_mmap nlat nlon) by (first [assumption | apply lat2_shaped]); rewrite ?lat2_get by assumption; reflexivity.
Qed.

Lemma cq_pos m P W : known_method m -> cq g m P W <= cq g m P P.
Proof.
  intros Hm. pose proof (rs_pos _ _ _ _ _ Hg) as Hr. pose proof (dlam_gpos _ _ _ _ _ Hg) as Hd.
  destruct Hm as [->| ->].
  - unfold cq. simpl. apply Rmult_le_compat_r; [left; now apply Rinv_0_lt_compat|].
    apply Rmult_le_compat_r; [left; now apply Rinv_0_lt_compat|].
    unfold tab. apply Rsum_le. intros i Hi. apply in_seq in Hi.
    assert (0 < nth i (gridpoint_area g) 0) by (eapply gpa_pos; eauto; lia).
    destruct (Rleb 0 (P i)) eqn:E1, (Rleb 0 (W i)) eqn:E2; rewrite ?Rleb_true, ?Rleb_false in *; nra.
  - destruct (interpolant_exists _ _ _ _ _ Hg P) as [FP IP]. destruct (interpolant_exists _ _ _ _ _ Hg W) as [FW IW].
    eapply is_RInt_le; [|eapply (cq_is_RInt _ _ _ _ _ Hg P W); eauto|eapply (cq_is_RInt _ _ _ _ _ Hg P P); eauto|].
    + pose proof PI_RGT_0. lra.
    + intros x Hx. unfold masked. assert (0 < cos x) by (apply cos_gt_0; lra).
      rewrite (gf_rs _ _ _ _ F) in Hr. assert (0 < rs * cos x) by now apply Rmult_lt_0_compat.
      replace (rs * FP x * cos x) with (FP x * (rs * cos x)) by ring.
      destruct (Rle_dec 0 (FP x)), (Rle_dec 0 (FW x)); nra.
Qed.
Lemma wave_nonneg m q y j : known_method m -> 0 <= wave m q y j.
Proof. intros Hm. unfold wave. pose proof (cq_pos m (Pc q j) (Wc y) Hm). lra. Qed.
Lemma frow_nonneg m q y : known_method m -> -90 <= y <= 90 -> forall x, In x (frow m q y) -> 0 <= x.
Proof.
  intros Hm Hy x Hx. unfold frow, tab in Hx. apply in_map_iff in Hx. destruct Hx as [j [<- _]].
  apply Rmult_le_pos; [now apply wave_nonneg|]. left. apply Rinv_0_lt_compat. now apply np_cosd_pos.
Qed.

Definition eqy (m : string) (q : R) : R := eqlat1 g (carea res rs g m nlon pv q * (INR nlon / INR nlon)).

Lemma background_form levels qd : known_method qd ->
  let q := zonalize_levels g (mmin pv) (mmax pv) levels qd in q <> [] ->
  exists qq yy, falwa_background g pv levels qd = Ok (qq, yy) /\ length qq = length yy
    /\ within_poles yy /\ (qd = "sptrapz"%string -> qq = q /\ yy = map (eqy qd) q)
    /\ (qd = "boxcount"%string -> yy = midpoints (g_lat g)) /\ yy <> [].
Proof.
  intros Hm q Hq. unfold falwa_background.
  rewrite (zonalize_form _ _ _ _ _ Hg nlon) by (auto; unfold nlon; pose proof nlon_pos; lia). fold q. cbn [bind].
  set (y0 := map _ q).
  assert (W0 : within_poles y0).
  { intros x Hx. apply in_map_iff in Hx. destruct Hx as [t [<- _]]. eapply eqlat_range; eauto. }
  assert (L0 : length q = length y0) by (unfold y0; now rewrite map_length).
  destruct Hm as [->| ->]; cbn [is_boxcount String.eqb Ascii.eqb Bool.eqb].
  - set (mid := midpoints (g_lat g)).
    assert (Wm : within_poles mid).
    { intros x Hx. apply (In_nth _ _ 0) in Hx. destruct Hx as [k [Hk <-]]. unfold mid in *. rewrite midpoints_length in Hk.
      rewrite midpoints_nth by lia.
      pose proof (lat_poles (nth k (g_lat g) 0) ltac:(apply nth_In; lia)).
      pose proof (lat_poles (nth (S k) (g_lat g) 0) ltac:(apply nth_In; lia)). lra. }
    unfold interp1d_1d. rewrite L0, Nat.eqb_refl. cbn [negb].
    replace (forallb _ mid) with true.
    2:{ symmetry. apply forallb_forall. intros x Hx. apply L_in_bounds; auto. }
    cbn [bind]. eexists. exists mid. split; [reflexivity|]. split; [apply map_length|]. split; [auto|].
    split; [easy|]. split; [reflexivity|]. intros E. apply (f_equal (@length R)) in E. unfold mid in E.
    rewrite midpoints_length, lat_length in E. simpl in E. pose proof N1. lia.
  - exists q, y0. split; [reflexivity|]. split; [exact L0|]. split; [exact W0|]. split; [split; reflexivity|]. split; [easy|].
    intros E. apply Hq. apply map_eq_nil in E. exact E.
Qed.

Definition frows (m : string) (qq yy : vec) : mat := map (fun p => frow m (fst p) (snd p)) (combine qq yy).
Lemma frows_length m qq yy : length qq = length yy -> length (frows m qq yy) = length yy.
Proof. intros H. unfold frows. rewrite map_length, combine_length. lia. Qed.
Lemma frows_row m qq yy k : length qq = length yy -> (k < length yy)%nat ->
  nth k (frows m qq yy) [] = frow m (nth k qq 0) (nth k yy 0).
Proof.
  intros H Hk. unfold frows. rewrite (nth_map_lt _ _ _ (0, 0)) by (rewrite combine_length; lia).
  now rewrite combine_nth by auto.
Qed.
Lemma frows_shaped m qq yy : length qq = length yy -> shaped (length yy) nlon (frows m qq yy).
Proof.
  intros H. split; [now apply frows_length|]. unfold frows. rewrite Forall_map. apply Forall_forall.
  intros p _. unfold frow. apply tab_length.
Qed.

Lemma contours_form levels qd qq yy : known_method qd -> falwa_background g pv levels qd = Ok (qq, yy) ->
  falwa_contours g pv levels qd = Ok (frows qd qq yy, yy).
Proof.
  intros Hm E. unfold falwa_contours. rewrite E. cbn [bind].
  erewrite res_map_ok; [reflexivity|]. intros [a b] _. now apply row_form.
Qed.
Lemma falwa_form levels qd qq yy : known_method qd -> falwa_background g pv levels qd = Ok (qq, yy) ->
  length qq = length yy -> within_poles yy -> yy <> [] ->
  falwa g pv levels qd = Ok (map (fun x => tab nlon (fun j =>
     eval_linear (padded_nodes yy (mcol (frows qd qq yy) j) (0, 0)) x)) (g_lat g)).
Proof.
  intros Hm E HL W NE. unfold falwa. rewrite (contours_form _ _ qq yy) by auto. cbn [bind].
  unfold interpolate_meridional_2d, interp1d_2d. rewrite frows_length, Nat.eqb_refl by auto. cbn [negb].
  replace (forallb _ (g_lat g)) with true.
  2:{ symmetry. apply forallb_forall. intros x Hx. apply L_in_bounds; auto. now apply lat_poles. }
  cbv zeta. rewrite (shaped_ncols (length yy) nlon); [reflexivity|now apply frows_shaped|].
  destruct yy; [easy|cbn [length]; lia].
Qed.
Lemma fawa_form levels qd qq yy : known_method qd -> falwa_background g pv levels qd = Ok (qq, yy) ->
  length qq = length yy -> within_poles yy ->
  fawa g pv levels qd = Ok (map (eval_np (padded_nodes yy (map vmean (frows qd qq yy)) (0, 0))) (g_lat g)).
Proof.
  intros Hm E HL W. unfold fawa, fawa_contours. rewrite (contours_form _ _ qq yy) by auto. cbn [bind].
  unfold interpolate_meridional_1d, interp1d_1d. rewrite map_length, frows_length, Nat.eqb_refl by auto. cbn [negb].
  replace (forallb _ (g_lat g)) with true; [reflexivity|].
  symmetry. apply forallb_forall. intros x Hx. apply L_in_bounds; auto.
  - now rewrite map_length, frows_length.
  - now apply lat_poles.
Qed.

(** interpolated values *)
Lemma mcol_frows m qq yy j k : length qq = length yy -> (k < length yy)%nat -> (j < nlon)%nat ->
  nth k (mcol (frows m qq yy) j) 0 = wave m (nth k qq 0) (nth k yy 0) j / np_cosd (nth k yy 0).
Proof.
  intros H Hk Hj. rewrite mcol_nth by (now rewrite frows_length). unfold mget.
  rewrite frows_row by auto. unfold frow. now rewrite tab_nth.
Qed.

Lemma interp_range m qq yy j x lo hi : length qq = length yy -> within_poles yy -> (j < nlon)%nat ->
  lo <= 0 <= hi ->
  (forall k, (k < length yy)%nat -> lo <= wave m (nth k qq 0) (nth k yy 0) j / np_cosd (nth k yy 0) <= hi) ->
  -90 <= x <= 90 ->
  match eval_linear (padded_nodes yy (mcol (frows m qq yy) j) (0, 0)) x with
  | Some v => lo <= v <= hi
  | None => x = -90 /\ In (-90) yy
  end.
Proof.
  intros HL W Hj Hz Hb Hx.
  assert (Lj : length (mcol (frows m qq yy) j) = length yy) by (rewrite mcol_length; now apply frows_length).
  destruct (Req_dec x (-90)) as [->|Hne].
  - rewrite lin_south by auto. destruct (in_dec Req_EM_T (-90) yy); [auto|exact Hz].
  - destruct (lin_defined yy (mcol (frows m qq yy) j) (0, 0) Lj x ltac:(lra)) as [w [-> Hw]].
    apply Hw. intros p [->|[->|[i [Hi ->]]]]; cbn [fst snd]; [exact Hz|exact Hz|].
    rewrite mcol_frows by auto. now apply Hb.
Qed.

(** ** Strictness of areas *)
Lemma lin_neg a b : a < 0 -> exists s, 0 < s <= 1 /\ forall t, 0 < t < s -> (1 - t) * a + t * b < 0.
Proof.
  intros Ha. set (B := Rmax b 0). assert (HB : b <= B /\ 0 <= B) by (unfold B; split; [apply Rmax_l|apply Rmax_r]).
  exists (- a / (B - a)). assert (P : 0 < B - a) by lra. split; [split|].
  - apply Rdiv_lt_0_compat; lra.
  - apply Rmult_le_reg_r with (B - a); [lra|]. unfold Rdiv. rewrite Rmult_assoc, Rinv_l by lra. lra.
  - intros t [H1 H2]. assert (t * (B - a) < - a).
    { replace (- a) with (- a / (B - a) * (B - a)) by (field; lra). now apply Rmult_lt_compat_r. }
    nra.
Qed.
Lemma neg_interval Z FZ i : pl_interpolant (g_phi g) (tab nlat Z) FZ -> (i < nlat)%nat -> Z i < 0 ->
  exists u v, - (PI / 2) <= u /\ u < v /\ v <= PI / 2 /\ forall t, u < t < v -> FZ t < 0.
Proof.
  intros IZ Hi Hz. unfold nlat in Hi.
  destruct i as [|k].
  - pose proof (phi_step _ _ _ _ _ Hg 0 N1) as St.
    pose proof (phi_range g 0 N0). pose proof (phi_range g 1 N1).
    destruct (lin_neg (Z 0%nat) (Z 1%nat) Hz) as [s [Hs Hn]].
    set (xl := nth 0 (g_phi g) 0) in *. set (xr := nth 1 (g_phi g) 0) in *.
    exists (xl - s * (xl - xr)), xl. assert (s * (xl - xr) <= xl - xr) by nra.
    assert (0 < s * (xl - xr)) by (apply Rmult_lt_0_compat; lra).
    split; [lra|]. split; [lra|]. split; [lra|]. intros t Ht.
    rewrite (pl_value _ _ _ _ _ Hg Z FZ t 0 IZ N1) by (fold xl xr; lra). cbv zeta. fold xl xr.
    replace (((t - xr) * Z 0%nat + (xl - t) * Z 1%nat) / (xl - xr))
      with ((1 - (xl - t) / (xl - xr)) * Z 0%nat + (xl - t) / (xl - xr) * Z 1%nat) by (field; lra).
    apply Hn. split; [apply Rdiv_lt_0_compat; lra|].
    apply Rmult_lt_reg_r with (xl - xr); [lra|]. unfold Rdiv. rewrite Rmult_assoc, Rinv_l by lra. lra.
  - pose proof (phi_step _ _ _ _ _ Hg k Hi) as St.
    pose proof (phi_range g k ltac:(lia)). pose proof (phi_range g (S k) Hi).
    destruct (lin_neg (Z (S k)) (Z k) Hz) as [s [Hs Hn]].
    set (xl := nth k (g_phi g) 0) in *. set (xr := nth (S k) (g_phi g) 0) in *.
    exists xr, (xr + s * (xl - xr)). assert (s * (xl - xr) <= xl - xr) by nra.
    assert (0 < s * (xl - xr)) by (apply Rmult_lt_0_compat; lra).
    split; [lra|]. split; [lra|]. split; [lra|]. intros t Ht.
    rewrite (pl_value _ _ _ _ _ Hg Z FZ t k IZ Hi) by (fold xl xr; lra). cbv zeta. fold xl xr.
    replace (((t - xr) * Z k + (xl - t) * Z (S k)) / (xl - xr))
      with ((1 - (t - xr) / (xl - xr)) * Z (S k) + (t - xr) / (xl - xr) * Z k) by (field; lra).
    apply Hn. split; [apply Rdiv_lt_0_compat; lra|].
    apply Rmult_lt_reg_r with (xl - xr); [lra|]. unfold Rdiv. rewrite Rmult_assoc, Rinv_l by lra. lra.
Qed.

Lemma cq_lt_full Z i : (i < nlat)%nat -> Z i < 0 -> cq g "sptrapz" (fun _ => 1) Z < 2 * rs.
Proof.
  intros Hi Hz. destruct (interpolant_exists _ _ _ _ _ Hg (fun _ => 1)) as [Y HY].
  destruct (interpolant_exists _ _ _ _ _ Hg Z) as [FZ IZ].
  destruct (neg_interval Z FZ i IZ Hi Hz) as [u [v [Hu [Huv [Hv Hn]]]]].
  pose proof (gf_rs_pos _ _ _ _ F) as Hr.
  set (G := fun t => if Rlt_dec u t then if Rlt_dec t v then 0 else rs * cos t else rs * cos t).
  assert (I2 : is_RInt G (- (PI / 2)) (PI / 2) ((rs * (sin u - sin (- (PI / 2))) + 0) + rs * (sin (PI / 2) - sin v))).
  { apply is_RInt_ChaslesR with v; [apply is_RInt_ChaslesR with u|].
    - eapply is_RInt_ext; [|apply (is_RInt_cos_scal rs)]. intros x Hx. rewrite Rmin_left, Rmax_right in Hx by lra.
      unfold G. destruct (Rlt_dec u x); [lra|reflexivity].
    - eapply is_RInt_ext; [|apply is_RInt_zero]. intros x Hx. rewrite Rmin_left, Rmax_right in Hx by lra.
      unfold G. destruct (Rlt_dec u x); [|lra]. destruct (Rlt_dec x v); [reflexivity|lra].
    - eapply is_RInt_ext; [|apply (is_RInt_cos_scal rs)]. intros x Hx. rewrite Rmin_left, Rmax_right in Hx by lra.
      unfold G. destruct (Rlt_dec u x); [|reflexivity]. destruct (Rlt_dec x v); [lra|reflexivity]. }
  assert (L : cq g "sptrapz" (fun _ => 1) Z <= (rs * (sin u - sin (- (PI / 2))) + 0) + rs * (sin (PI / 2) - sin v)).
  { eapply is_RInt_le; [|eapply (cq_is_RInt _ _ _ _ _ Hg (fun _ => 1) Z); eauto|exact I2|].
    - pose proof PI_RGT_0. lra.
    - intros x Hx. assert (0 < cos x) by (apply cos_gt_0; lra). assert (0 < rs * cos x) by now apply Rmult_lt_0_compat.
      unfold masked, G. rewrite (pl_ones _ _ _ _ _ Hg Y HY) by lra. rewrite Rmult_1_r.
      destruct (Rlt_dec u x); [destruct (Rlt_dec x v)|].
      + specialize (Hn x ltac:(lra)). destruct (Rle_dec 0 (FZ x)); lra.
      + destruct (Rle_dec 0 (FZ x)); lra.
      + destruct (Rle_dec 0 (FZ x)); lra. }
  rewrite sin_neg, sin_PI2 in L. assert (sin u < sin v) by (apply sin_increasing_1; lra). nra.
Qed.
Lemma cq_gt_zero Z i : (i < nlat)%nat -> 0 < Z i -> 0 < cq g "sptrapz" (fun _ => 1) Z.
Proof.
  intros Hi Hz. set (Z' := fun k => if Req_EM_T (Z k) 0 then -1 else Z k).
  assert (N : forall k, (k < g_nlat g)%nat -> Z' k <> 0) by (intros k _; unfold Z'; destruct (Req_EM_T (Z k) 0); lra).
  assert (S2 : known_method "sptrapz") by now right.
  pose proof (cq_split _ _ _ _ _ Hg "sptrapz" (fun _ => 1) Z' S2 N) as E.
  rewrite (cq_one _ _ _ _ _ Hg) in E by auto.
  assert (Hlt : cq g "sptrapz" (fun _ => 1) (fun k => - Z' k) < 2 * rs).
  { apply (cq_lt_full _ i Hi). unfold Z'. destruct (Req_EM_T (Z i) 0); lra. }
  assert (cq g "sptrapz" (fun _ => 1) Z' <= cq g "sptrapz" (fun _ => 1) Z); [|lra].
  apply (cq_mono_z _ _ _ _ _ Hg); auto; intros; [lra|]. unfold Z'. destruct (Req_EM_T (Z i0) 0); lra.
Qed.

(** integrals against areas *)
Lemma one_zero m Z : (forall i, (i < nlat)%nat -> 0 <= Z i) -> cq g m (fun _ => 1) Z = cq g m (fun _ => 1) (fun _ => 1).
Proof.
  intros H. assert (E : forall i, (i < nlat)%nat -> Rleb 0 (Z i) = true) by (intros; apply Rleb_true; auto).
  assert (E1 : Rleb 0 1 = true) by (apply Rleb_true; lra). unfold nlat in E.
  unfold cq. destruct (is_boxcount m).
  - do 3 f_equal. apply tab_ext. intros i Hi. now rewrite E, E1.
  - f_equal. apply tab_ext. intros i Hi. unfold sg, seg_trapz. cbn [fst snd]. rewrite !E, E1 by lia. reflexivity.
Qed.
Lemma cq_all m Y Z : (forall i, (i < nlat)%nat -> 0 <= Z i) -> cq g m Y Z = cq g m Y (fun _ => 1).
Proof.
  intros H. assert (E : forall i, (i < nlat)%nat -> Rleb 0 (Z i) = true) by (intros; apply Rleb_true; auto).
  assert (E1 : Rleb 0 1 = true) by (apply Rleb_true; lra). unfold nlat in E.
  unfold cq. destruct (is_boxcount m).
  - do 3 f_equal. apply tab_ext. intros i Hi. now rewrite E, E1.
  - f_equal. apply tab_ext. intros i Hi. unfold sg, seg_trapz. cbn [fst snd]. rewrite !E, E1 by lia. reflexivity.
Qed.
Lemma cq_shift m q j W : cq g m (Pc q j) W = cq g m (Pc 0 j) W - q * cq g m (fun _ => 1) W.
Proof.
  rewrite (cq_ext g m (Pc q j) W (fun i => 1 * Pc 0 j i + (- q) * 1) W).
  - rewrite (cq_linear g m (Pc 0 j) (fun _ => 1)). ring.
  - intros i _. unfold Pc. ring.
  - auto.
Qed.

(** the cap north of an equivalent latitude *)
Lemma lat_decr i : (S i < g_nlat g)%nat -> nth (S i) (g_lat g) 0 < nth i (g_lat g) 0.
Proof. intros Hi. apply lat_decreasing; [exact N1|lia|rewrite ?lat_length; lia]. Qed.
Lemma lat_pl : pl_interpolant (g_phi g) (tab (g_nlat g) (fun i => nth i (g_lat g) 0)) rad2deg.
Proof.
  intros i Hi t Ht. rewrite phi_length in Hi. rewrite !tab_nth by lia.
  pose proof (phi_step _ _ _ _ _ Hg i Hi) as St. rewrite !phi_nth in * by lia.
  set (a := nth i (g_lat g) 0) in *. set (b := nth (S i) (g_lat g) 0) in *.
  apply (proj2 (deg2rad_lt _ _)) in St. unfold rad2deg, deg2rad. pose proof PI_RGT_0.
  assert (b * PI < a * PI) by (apply Rmult_lt_compat_r; lra). field. repeat split; lra.
Qed.
Lemma W_pl y : pl_interpolant (g_phi g) (tab (g_nlat g) (Wc y)) (fun t => rad2deg t - y).
Proof. exact (P_shift _ _ _ _ _ Hg _ rad2deg lat_pl y). Qed.
Lemma lat_P y : -90 <= y <= 90 -> cq g "sptrapz" (fun _ => 1) (Wc y) = rs * (1 - sin (deg2rad y)).
Proof.
  intros Hy. apply (col_area _ _ _ _ _ Hg _ lat_decr rad2deg lat_pl y (deg2rad y)).
  - now apply deg2rad_range.
  - apply rad2deg_deg2rad.
Qed.

(** area enclosed by a contour *)
Definition csum (q : R) : R := Rsum (tab nlon (fun j => cq g "sptrapz" (fun _ => 1) (Pc q j))).
Lemma eqy_cap q : -90 <= eqy "sptrapz" q <= 90
  /\ 2 * PI * rs * (1 - sin (deg2rad (eqy "sptrapz" q))) = deg2rad res * csum q.
Proof.
  assert (K : 0 < INR nlon) by (apply lt_0_INR; exact nlon_pos).
  pose proof (carea_bounds _ _ _ _ _ Hg "sptrapz" nlon pv q (or_intror eq_refl) nlon_pos) as B.
  destruct (eqlat_cap _ _ _ _ _ Hg _ B) as [H1 H2]. split; [exact H1|].
  rewrite cap_area_formula in H2. unfold eqy. pose proof (gf_rs_pos _ _ _ _ F) as Hr.
  apply Rmult_eq_reg_r with rs; [|lra]. fold nlon in H2.
  transitivity (2 * PI * rs * rs * (1 - sin (deg2rad (eqlat1 g (carea res rs g "sptrapz" nlon pv q * (INR nlon / INR nlon))))));
    [ring|]. rewrite H2. unfold carea, csum, Pc. field. lra.
Qed.
Lemma csum_bounds q : 0 <= csum q <= INR nlon * (2 * rs).
Proof.
  assert (S2 : known_method "sptrapz") by now right. unfold csum.
  split.
  - rewrite <- (Rmult_0_r (INR nlon)), <- Rsum_tab_const. unfold tab. apply Rsum_le. intros. now apply (cq_bounds _ _ _ _ _ Hg).
  - rewrite <- Rsum_tab_const. unfold tab. apply Rsum_le. intros. now apply (cq_bounds _ _ _ _ _ Hg).
Qed.
Lemma Rsum_tab_lt n f h j : (forall k, (k < n)%nat -> f k <= h k) -> (j < n)%nat -> f j < h j ->
  Rsum (tab n f) < Rsum (tab n h).
Proof.
  induction n as [|n IH]; intros H Hj Hlt; [lia|]. rewrite !Rsum_tab_S.
  destruct (Nat.eq_dec j n) as [->|Hne].
  - assert (Rsum (tab n f) <= Rsum (tab n h)); [|lra]. unfold tab. apply Rsum_le. intros k Hk. apply in_seq in Hk.
    apply H. lia.
  - pose proof (H n ltac:(lia)). specialize (IH ltac:(intros; apply H; lia) ltac:(lia) Hlt). lra.
Qed.
Lemma nlon_res : INR nlon * deg2rad res <= 2 * PI.
Proof.
  destruct (kappa_pos _ _ _ _ _ Hg) as [_ K]. unfold kappa in K. unfold deg2rad. pose proof PI_RGT_0. fold nlon in K.
  replace (INR nlon * (res * PI / 180)) with (2 * PI * (INR nlon * res / 360)) by field. nra.
Qed.
Lemma deg2rad_res_pos : 0 < deg2rad res.
Proof. rewrite <- deg2rad_0. apply (proj1 (deg2rad_lt _ _)). exact (gf_res_pos _ _ _ _ F). Qed.

Lemma eqy_gt q i j : (i < nlat)%nat -> (j < nlon)%nat -> mget pv i j < q -> -90 < eqy "sptrapz" q.
Proof.
  intros Hi Hj H. destruct (eqy_cap q) as [B E]. destruct (Req_dec (eqy "sptrapz" q) (-90)) as [X|]; [|lra].
  exfalso. rewrite X, deg2rad_m90, sin_neg, sin_PI2 in E.
  assert (S2 : known_method "sptrapz") by now right.
  assert (L : csum q < INR nlon * (2 * rs)).
  { unfold csum. rewrite <- Rsum_tab_const. apply Rsum_tab_lt with j; auto.
    - intros. now apply (cq_bounds _ _ _ _ _ Hg).
    - apply (cq_lt_full _ i Hi). unfold Pc. lra. }
  pose proof nlon_res. pose proof deg2rad_res_pos. pose proof (gf_rs_pos _ _ _ _ F).
  assert (deg2rad res * csum q < deg2rad res * (INR nlon * (2 * rs))) by now apply Rmult_lt_compat_l.
  assert (INR nlon * deg2rad res * (2 * rs) <= 2 * PI * (2 * rs)) by (apply Rmult_le_compat_r; lra). lra.
Qed.
Lemma eqy_lt q i j : (i < nlat)%nat -> (j < nlon)%nat -> q < mget pv i j -> eqy "sptrapz" q < 90.
Proof.
  intros Hi Hj H. destruct (eqy_cap q) as [B E]. destruct (Req_dec (eqy "sptrapz" q) 90) as [X|]; [|lra].
  exfalso. rewrite X, deg2rad_90, sin_PI2 in E.
  assert (S2 : known_method "sptrapz") by now right.
  assert (L : 0 < csum q).
  { unfold csum. rewrite <- (Rmult_0_r (INR nlon)), <- Rsum_tab_const. apply Rsum_tab_lt with j; auto.
    - intros. now apply (cq_bounds _ _ _ _ _ Hg).
    - apply (cq_gt_zero _ i Hi). unfold Pc. lra. }
  pose proof deg2rad_res_pos. assert (0 < deg2rad res * csum q) by now apply Rmult_lt_0_compat. lra.
Qed.

(** ** Equal equivalent latitudes *)
Lemma sandwich q1 q2 j :
  (q2 - q1) * cq g "sptrapz" (fun _ => 1) (Pc q2 j)
  <= cq g "sptrapz" (Pc q1 j) (Pc q1 j) - cq g "sptrapz" (Pc q2 j) (Pc q2 j)
  <= (q2 - q1) * cq g "sptrapz" (fun _ => 1) (Pc q1 j).
Proof.
  assert (S2 : known_method "sptrapz") by now right.
  pose proof (cq_pos "sptrapz" (Pc q1 j) (Pc q2 j) S2) as A.
  pose proof (cq_pos "sptrapz" (Pc q2 j) (Pc q1 j) S2) as B.
  rewrite (cq_shift "sptrapz" q1 j (Pc q2 j)) in A.
  rewrite (cq_shift "sptrapz" q2 j (Pc q1 j)) in B.
  rewrite (cq_shift "sptrapz" q2 j (Pc q2 j)). rewrite (cq_shift "sptrapz" q1 j (Pc q1 j)).
  rewrite (cq_shift "sptrapz" q1 j (Pc q1 j)) in A. rewrite (cq_shift "sptrapz" q2 j (Pc q2 j)) in B. lra.
Qed.
Definition QS (q : R) : R := Rsum (tab nlon (fun j => cq g "sptrapz" (Pc q j) (Pc q j))).
Lemma sandwich_sum q1 q2 : (q2 - q1) * csum q2 <= QS q1 - QS q2 <= (q2 - q1) * csum q1.
Proof.
  unfold QS, csum. replace (Rsum (tab nlon (fun j => cq g "sptrapz" (Pc q1 j) (Pc q1 j))) - _)
    with (Rsum (tab nlon (fun j => cq g "sptrapz" (Pc q1 j) (Pc q1 j) + (-1) * cq g "sptrapz" (Pc q2 j) (Pc q2 j))))
    by (rewrite Rsum_tab_plus, Rsum_tab_scal; ring).
  rewrite <- !Rsum_tab_scal. unfold tab. split; apply Rsum_le; intros j _; pose proof (sandwich q1 q2 j); lra.
Qed.

Lemma mean_frow m q y : vmean (frow m q y) = Rsum (tab nlon (fun j => wave m q y j)) / np_cosd y / INR nlon.
Proof.
  unfold frow. rewrite vmean_tab. f_equal. unfold Rdiv at 2. rewrite Rmult_comm, <- Rsum_tab_scal. f_equal.
  apply tab_ext. intros. unfold Rdiv. ring.
Qed.
Lemma wave_sum q y : -90 <= y <= 90 -> Rsum (tab nlon (fun j => wave "sptrapz" q y j))
  = QS q - Rsum (tab nlon (fun j => cq g "sptrapz" (Pc 0 j) (Wc y))) + q * (INR nlon * (rs * (1 - sin (deg2rad y)))).
Proof.
  intros Hy. rewrite (tab_ext nlon _ (fun j => cq g "sptrapz" (Pc q j) (Pc q j)
    + ((-1) * cq g "sptrapz" (Pc 0 j) (Wc y) + q * (rs * (1 - sin (deg2rad y)))))).
  - rewrite Rsum_tab_plus, Rsum_tab_plus, Rsum_tab_scal, Rsum_tab_const. unfold QS. ring.
  - intros j _. unfold wave. rewrite (cq_shift "sptrapz" q j (Wc y)), lat_P by auto. ring.
Qed.

Section Integer.
Hypothesis Hint : is_integer (360 / res).
Lemma nlon_res_eq : INR nlon * deg2rad res = 2 * PI.
Proof.
  pose proof (proj2 (kappa_one _ _ _ _ _ Hg) Hint) as K. unfold kappa in K. fold nlon in K. unfold deg2rad.
  replace (INR nlon * (res * PI / 180)) with (2 * PI * (INR nlon * res / 360)) by field. rewrite K. ring.
Qed.
Lemma csum_eq q : csum q = INR nlon * (rs * (1 - sin (deg2rad (eqy "sptrapz" q)))).
Proof.
  destruct (eqy_cap q) as [_ E]. pose proof nlon_res_eq as K. pose proof deg2rad_res_pos.
  apply Rmult_eq_reg_l with (deg2rad res); [|lra]. rewrite <- E, <- K. ring.
Qed.
Lemma mean_dup q1 q2 y : eqy "sptrapz" q1 = y -> eqy "sptrapz" q2 = y ->
  vmean (frow "sptrapz" q1 y) = vmean (frow "sptrapz" q2 y).
Proof.
  intros E1 E2. destruct (eqy_cap q1) as [B _]. rewrite E1 in B.
  rewrite !mean_frow, !wave_sum by auto. unfold Rdiv. do 2 f_equal.
  pose proof (sandwich_sum q1 q2) as S. pose proof (csum_eq q1) as C1. pose proof (csum_eq q2) as C2.
  rewrite E1 in C1. rewrite E2 in C2. rewrite C1, C2 in S. lra.
Qed.
End Integer.

(** ** Contours outside the range *)
Lemma cq_W90 Y : cq g "sptrapz" Y (Wc 90) = 0.
Proof.
  destruct (interpolant_exists _ _ _ _ _ Hg Y) as [FY HY].
  pose proof (cq_is_RInt _ _ _ _ _ Hg Y (Wc 90) FY _ HY (W_pl 90)) as I1.
  rewrite <- (is_RInt_unique _ _ _ _ I1). apply is_RInt_unique.
  eapply is_RInt_ext; [|apply is_RInt_zero]. intros x Hx. rewrite Rmin_left, Rmax_right in Hx by (pose proof PI_RGT_0; lra).
  unfold masked. destruct (Rle_dec 0 (rad2deg x - 90)) as [H|]; [|reflexivity]. exfalso.
  assert (90 <= rad2deg x) by lra. apply (proj1 (deg2rad_le _ _)) in H0.
  rewrite deg2rad_rad2deg, deg2rad_90 in H0. lra.
Qed.
Lemma cq_above q j : (forall i, (i < nlat)%nat -> mget pv i j <= q) -> cq g "sptrapz" (Pc q j) (Pc q j) = 0.
Proof.
  intros H. destruct (interpolant_exists _ _ _ _ _ Hg (Pc q j)) as [FY HY].
  destruct (interpolant_exists _ _ _ _ _ Hg (fun _ => 0)) as [FZ HZ].
  pose proof (cq_is_RInt _ _ _ _ _ Hg _ _ _ _ HY HY) as I1.
  rewrite <- (is_RInt_unique _ _ _ _ I1). apply is_RInt_unique.
  eapply is_RInt_ext; [|apply is_RInt_zero]. intros x Hx. rewrite Rmin_left, Rmax_right in Hx by (pose proof PI_RGT_0; lra).
  unfold masked. destruct (Rle_dec 0 (FY x)) as [Hy|]; [|reflexivity].
  assert (FY x <= FZ x).
  { apply (pl_mono _ _ _ _ _ Hg (Pc q j) (fun _ => 0) FY FZ x HY HZ); [|lra]. intros i Hi. unfold Pc. specialize (H i Hi). lra. }
  assert (FZ x = 0).
  { destruct (phi_cover _ _ _ _ _ Hg x ltac:(lra)) as [i [Hi Hs]]. pose proof (phi_step _ _ _ _ _ Hg i Hi).
    rewrite (pl_value _ _ _ _ _ Hg (fun _ => 0) FZ x i HZ Hi Hs). field. lra. }
  assert (Z0 : rs * FY x * cos x = 0) by (replace (FY x) with 0 by lra; ring). symmetry. exact Z0.
Qed.
Lemma top_zero q j : (j < nlon)%nat -> eqy "sptrapz" q = 90 -> wave "sptrapz" q 90 j = 0.
Proof.
  intros Hj E. unfold wave. rewrite cq_W90, cq_above; [ring|].
  intros i Hi. destruct (Rle_dec (mget pv i j) q); [auto|]. pose proof (eqy_lt q i j Hi Hj ltac:(lra)). lra.
Qed.
Lemma frow_zero m q y : (forall j, (j < nlon)%nat -> wave m q y j = 0) -> frow m q y = tab nlon (fun _ => 0).
Proof. intros H. unfold frow. apply tab_ext. intros j Hj. rewrite H by auto. unfold Rdiv. ring. Qed.

(** ** FAWA by either route *)
Lemma frows_mean_interp m qq yy x : length qq = length yy -> within_poles yy -> ~ In (-90) yy ->
  (forall i k, (i < length yy)%nat -> (k < length yy)%nat -> nth i yy 0 = nth k yy 0 ->
     vmean (frow m (nth i qq 0) (nth i yy 0)) = vmean (frow m (nth k qq 0) (nth k yy 0))) ->
  (forall i, (i < length yy)%nat -> nth i yy 0 = 90 -> vmean (frow m (nth i qq 0) (nth i yy 0)) = 0) ->
  -90 <= x <= 90 ->
  nan_mean (tab nlon (fun j => eval_linear (padded_nodes yy (mcol (frows m qq yy) j) (0, 0)) x))
  = Some (eval_np (padded_nodes yy (map vmean (frows m qq yy)) (0, 0)) x).
Proof.
  intros HL W NS HD HN Hx. apply mean_interp; auto.
  - exact nlon_pos.
  - now apply frows_length.
  - apply (frows_shaped m qq yy HL).
  - intros i k Hi Hk E. rewrite !frows_row by auto. now apply HD.
  - intros i Hi E. rewrite frows_row by auto. now apply HN.
Qed.
Lemma means_agree levels qd qq yy : known_method qd -> falwa_background g pv levels qd = Ok (qq, yy) ->
  length qq = length yy -> within_poles yy -> yy <> [] -> ~ In (-90) yy ->
  (forall i k, (i < length yy)%nat -> (k < length yy)%nat -> nth i yy 0 = nth k yy 0 ->
     vmean (frow qd (nth i qq 0) (nth i yy 0)) = vmean (frow qd (nth k qq 0) (nth k yy 0))) ->
  (forall i, (i < length yy)%nat -> nth i yy 0 = 90 -> vmean (frow qd (nth i qq 0) (nth i yy 0)) = 0) ->
  exists f, fawa g pv levels qd = Ok f /\ mean_falwa g pv levels qd = Ok (map Some f).
Proof.
  intros Hm E HL W NE NS HD HN. eexists. split; [apply (fawa_form levels qd qq yy); auto|].
  unfold mean_falwa. erewrite falwa_form by eauto. cbn [bind]. f_equal. rewrite !map_map. apply map_ext_in.
  intros x Hx. apply frows_mean_interp; auto. now apply lat_poles.
Qed.

(** ** Zonally symmetric PV *)
Section Sym.
Variables (p : nat -> R) (P : R -> R).
Hypothesis Hp : forall i, (S i < g_nlat g)%nat -> p (S i) < p i.
Hypothesis HP : pl_interpolant (g_phi g) (tab (g_nlat g) p) P.
Hypothesis Epv : pv = mat_of nlat nlon (fun i _ => p i).

Lemma sym_P q j i : (i < nlat)%nat -> (j < nlon)%nat -> Pc q j i = p i - q.
Proof. intros Hi Hj. unfold Pc. rewrite Epv, mget_mat_of by auto. reflexivity. Qed.
Lemma sym_eqy q t : - (PI / 2) <= t <= PI / 2 -> P t = q ->
  eqy "sptrapz" q = rad2deg (asin (1 - kappa res g * (1 - sin t))).
Proof.
  intros Ht Hq. unfold eqy. rewrite Epv. unfold nlat, nlon.
  apply (symmetric_eqlat _ _ _ _ _ Hg p Hp P HP (g_nlon g) q t nlon_pos Ht Hq).
Qed.
Lemma sym_PP q j : (j < nlon)%nat ->
  is_RInt (masked rs (fun t => P t - q) (fun t => P t - q)) (- (PI / 2)) (PI / 2) (cq g "sptrapz" (Pc q j) (Pc q j)).
Proof.
  intros Hj. rewrite (cq_ext g "sptrapz" (Pc q j) (Pc q j) (fun i => p i - q) (fun i => p i - q))
    by (intros; now apply sym_P).
  apply (cq_is_RInt _ _ _ _ _ Hg); exact (P_shift _ _ _ _ _ Hg p P HP q).
Qed.
Lemma sym_PW q y j : (j < nlon)%nat ->
  is_RInt (masked rs (fun t => P t - q) (fun t => rad2deg t - y)) (- (PI / 2)) (PI / 2) (cq g "sptrapz" (Pc q j) (Wc y)).
Proof.
  intros Hj. rewrite (cq_ext g "sptrapz" (Pc q j) (Wc y) (fun i => p i - q) (Wc y))
    by (intros; try reflexivity; now apply sym_P).
  apply (cq_is_RInt _ _ _ _ _ Hg); [exact (P_shift _ _ _ _ _ Hg p P HP q)|apply W_pl].
Qed.

Lemma sym_zero q j : is_integer (360 / res) -> (j < nlon)%nat -> wave "sptrapz" q (eqy "sptrapz" q) j = 0.
Proof.
  intros Hint Hj. pose proof (proj2 (kappa_one _ _ _ _ _ Hg) Hint) as K.
  destruct (Rlt_dec (p 0%nat) q) as [Hhi|Hhi]; [|destruct (Rlt_dec q (p (nlat - 1)%nat)) as [Hlo|Hlo]].
  - assert (Hle : forall i, (i < nlat)%nat -> p i < q).
    { intros i Hi. pose proof (p_decr _ _ _ _ _ Hg p Hp 0 i ltac:(lia) Hi). lra. }
    assert (E : eqy "sptrapz" q = 90); [|rewrite E; now apply top_zero].
    unfold eqy. apply (eqlat_clamp _ _ _ _ _ Hg).
    assert (Z : csum q = 0).
    { unfold csum. rewrite (tab_ext nlon _ (fun _ => 0)); [rewrite Rsum_tab_const; ring|]. intros k Hk.
      destruct (interpolant_exists _ _ _ _ _ Hg (Pc q k)) as [FZ HZ].
      destruct (interpolant_exists _ _ _ _ _ Hg (fun _ => 1)) as [FY HY].
      pose proof (cq_is_RInt _ _ _ _ _ Hg _ _ _ _ HY HZ) as I1. rewrite <- (is_RInt_unique _ _ _ _ I1).
      apply is_RInt_unique. eapply is_RInt_ext; [|apply is_RInt_zero]. intros x Hx.
      rewrite Rmin_left, Rmax_right in Hx by (pose proof PI_RGT_0; lra). unfold masked.
      destruct (phi_cover _ _ _ _ _ Hg x ltac:(lra)) as [i [Hi Hs]]. pose proof (phi_step _ _ _ _ _ Hg i Hi) as St.
      destruct (Rle_dec 0 (FZ x)) as [C|]; [|reflexivity]. exfalso.
      rewrite (pl_value _ _ _ _ _ Hg (Pc q k) FZ x i HZ Hi Hs) in C. cbv zeta in C.
      rewrite !sym_P in C by (auto; unfold nlat; lia).
      pose proof (Hle i ltac:(unfold nlat; lia)) as Q1. pose proof (Hle (S i) Hi) as Q2.
      set (xl := nth i (g_phi g) 0) in *. set (xr := nth (S i) (g_phi g) 0) in *.
      assert (N : ((x - xr) * (p i - q) + (xl - x) * (p (S i) - q)) / (xl - xr) < 0); [|lra].
      pose proof (Hp i Hi). assert ((xl - x) * (p (S i) - q) <= (xl - x) * (p i - q)) by (apply Rmult_le_compat_l; lra).
      assert ((xl - xr) * (p i - q) < 0) by nra. apply frac_neg; lra. }
    unfold carea. change (Rsum _) with (csum q). rewrite Z. lra.
  - assert (Hge : forall i, (i < nlat)%nat -> 0 <= p i - q).
    { intros i Hi. pose proof (p_decr _ _ _ _ _ Hg p Hp i (nlat - 1) ltac:(lia) ltac:(unfold nlat; lia)). lra. }
    assert (E : eqy "sptrapz" q = -90).
    { unfold eqy. apply (eqlat_clamp _ _ _ _ _ Hg).
      assert (Z : csum q = INR nlon * (2 * rs)).
      { unfold csum. rewrite (tab_ext nlon _ (fun _ => 2 * rs)); [now rewrite Rsum_tab_const|]. intros k Hk.
        rewrite one_zero; [apply (cq_one _ _ _ _ _ Hg); now right|]. intros i Hi. rewrite sym_P by auto. auto. }
      unfold carea. change (Rsum _) with (csum q). rewrite Z.
      assert (0 < INR nlon) by (apply lt_0_INR; exact nlon_pos).
      pose proof (nlon_res_eq Hint) as Kq. apply Req_le.
      transitivity (rs * (2 * rs) * (INR nlon * deg2rad res)); [rewrite Kq; ring|]. field. lra. }
    rewrite E. unfold wave. rewrite (cq_all "sptrapz" (Pc q j) (Pc q j)), (cq_all "sptrapz" (Pc q j) (Wc (-90))); [ring| |].
    + intros i Hi. unfold Wc. pose proof (lat_poles (nth i (g_lat g) 0) ltac:(apply nth_In; rewrite lat_length; auto)). lra.
    + intros i Hi. rewrite sym_P by auto. auto.
  - destruct (P_root _ _ _ _ _ Hg p Hp P HP q ltac:(unfold nlat in *; lra)) as [t [Ht Et]].
    rewrite (sym_eqy q t Ht Et), K. replace (1 - 1 * (1 - sin t)) with (sin t) by ring.
    rewrite asin_sin by auto. unfold wave.
    pose proof (sym_PP q j Hj) as I1. pose proof (sym_PW q (rad2deg t) j Hj) as I2.
    rewrite <- (is_RInt_unique _ _ _ _ I1), <- (is_RInt_unique _ _ _ _ I2).
    apply Rminus_diag_eq. apply RInt_ext. intros x Hx. rewrite Rmin_left, Rmax_right in Hx by lra.
    unfold masked. destruct (Rle_dec 0 (P x - q)) as [C1|C1], (Rle_dec 0 (rad2deg x - rad2deg t)) as [C2|C2];
      try reflexivity; exfalso.
    + assert (x < t).
      { rewrite <- (deg2rad_rad2deg x), <- (deg2rad_rad2deg t). apply (proj1 (deg2rad_lt _ _)). lra. }
      pose proof (P_incr _ _ _ _ _ Hg p Hp P HP x t ltac:(lra) ltac:(lra) ltac:(lra)). lra.
    + assert (t <= x).
      { rewrite <- (deg2rad_rad2deg x), <- (deg2rad_rad2deg t). apply (proj1 (deg2rad_le _ _)). lra. }
      destruct (Req_dec t x) as [->|]; [lra|].
      pose proof (P_incr _ _ _ _ _ Hg p Hp P HP t x ltac:(lra) ltac:(lra) ltac:(lra)). lra.
Qed.
End Sym.

(** the latitude itself as PV on a grid that does not close *)
Lemma lat_field_positive j : ~ is_integer (360 / res) -> pv = mat_of nlat nlon (fun i _ => nth i (g_lat g) 0) ->
  (j < nlon)%nat -> 0 < wave "sptrapz" 0 (eqy "sptrapz" 0) j.
Proof.
  intros Hint Epv Hj. pose proof (gf_rs_pos _ _ _ _ F) as Hr. pose proof PI_RGT_0 as HPI.
  assert (K : kappa res g <> 1) by (intros E; apply Hint; now apply (kappa_one _ _ _ _ _ Hg)).
  destruct (kappa_pos _ _ _ _ _ Hg) as [K0 K1].
  assert (R0 : rad2deg 0 = 0) by (unfold rad2deg, Rdiv; ring).
  rewrite (sym_eqy _ rad2deg lat_decr lat_pl Epv 0 0 ltac:(lra) R0). rewrite sin_0.
  set (a := 1 - kappa res g * (1 - 0)). assert (Ha : 0 < a < 1) by (unfold a; lra).
  set (s := asin a).
  assert (Hs : 0 < s < PI / 2).
  { split; [|apply asin_bound_lt; lra]. apply Rnot_le_lt. intros C. pose proof (asin_bound a).
    assert (E : sin s = a) by (apply sin_asin; lra).
    assert (sin s <= sin 0) by (apply sin_incr_1; unfold s in *; lra). rewrite sin_0 in *. lra. }
  unfold wave. pose proof (sym_PP _ rad2deg lat_pl Epv 0 j Hj) as I1.
  pose proof (sym_PW _ rad2deg lat_pl Epv 0 (rad2deg s) j Hj) as I2.
  set (A := cq g "sptrapz" (Pc 0 j) (Pc 0 j)) in *. set (B := cq g "sptrapz" (Pc 0 j) (Wc (rad2deg s))) in *.
  set (h := fun x : R => rs * rad2deg x * cos x).
  assert (Cont : forall x, continuous h x).
  { intros x. apply (@ex_derive_continuous R_AbsRing R_NormedModule). unfold h, rad2deg. auto_derive. lra. }
  assert (Ih : forall u v, is_RInt h u v (RInt h u v)).
  { intros u v. apply (@RInt_correct R_CompleteNormedModule). apply (@ex_RInt_continuous R_CompleteNormedModule). intros; apply Cont. }
  assert (J1 : A = RInt h 0 s + RInt h s (PI / 2)).
  { rewrite <- (is_RInt_unique _ _ _ _ I1). apply is_RInt_unique.
    replace (RInt h 0 s + RInt h s (PI / 2)) with (0 + (RInt h 0 s + RInt h s (PI / 2))) by ring.
    apply is_RInt_ChaslesR with 0.
    - eapply is_RInt_ext; [|apply is_RInt_zero]. intros x Hx. rewrite Rmin_left, Rmax_right in Hx by lra.
      unfold masked. destruct (Rle_dec 0 (rad2deg x - 0)) as [C|]; [|reflexivity]. exfalso.
      assert (0 <= rad2deg x) by lra. apply (proj1 (deg2rad_le _ _)) in H. rewrite deg2rad_rad2deg, deg2rad_0 in H. lra.
    - eapply is_RInt_ext; [|apply is_RInt_ChaslesR with s; apply Ih].
      intros x Hx. rewrite Rmin_left, Rmax_right in Hx by lra. unfold masked, h. rewrite Rminus_0_r.
      destruct (Rle_dec 0 (rad2deg x)) as [C|C]; [reflexivity|]. exfalso. apply C.
      rewrite <- R0. apply (proj2 (deg2rad_le _ _)). rewrite !deg2rad_rad2deg. lra. }
  assert (J2 : B = RInt h s (PI / 2)).
  { rewrite <- (is_RInt_unique _ _ _ _ I2). apply is_RInt_unique.
    replace (RInt h s (PI / 2)) with (0 + RInt h s (PI / 2)) by ring.
    apply is_RInt_ChaslesR with s.
    - eapply is_RInt_ext; [|apply is_RInt_zero]. intros x Hx. rewrite Rmin_left, Rmax_right in Hx by lra.
      unfold masked. destruct (Rle_dec 0 (rad2deg x - rad2deg s)) as [C|]; [|reflexivity]. exfalso.
      assert (rad2deg s <= rad2deg x) by lra. apply (proj1 (deg2rad_le _ _)) in H. rewrite !deg2rad_rad2deg in H. lra.
    - eapply is_RInt_ext; [|apply Ih].
      intros x Hx. rewrite Rmin_left, Rmax_right in Hx by lra. unfold masked, h. rewrite Rminus_0_r.
      destruct (Rle_dec 0 (rad2deg x - rad2deg s)) as [C|C]; [reflexivity|]. exfalso. apply C.
      assert (rad2deg s <= rad2deg x); [|lra]. apply (proj2 (deg2rad_le _ _)). rewrite !deg2rad_rad2deg. lra. }
  assert (J3 : 0 < RInt h 0 s).
  { apply RInt_gt_0; [lra| |intros; apply Cont]. intros x Hx. unfold h.
    assert (0 < cos x) by (apply cos_gt_0; lra). assert (0 < rad2deg x) by (unfold rad2deg; apply Rdiv_lt_0_compat; [apply Rmult_lt_0_compat|]; lra).
    apply Rmult_lt_0_compat; [apply Rmult_lt_0_compat|]; lra. }
  lra.
Qed.

(** ** Constant PV *)
Lemma const_south c : is_integer (360 / res) -> pv = mat_of nlat nlon (fun _ _ => c) -> eqy "sptrapz" c = -90.
Proof.
  intros Hint Epv. unfold eqy. apply (eqlat_clamp _ _ _ _ _ Hg).
  assert (Z : csum c = INR nlon * (2 * rs)).
  { unfold csum. rewrite (tab_ext nlon _ (fun _ => 2 * rs)); [now rewrite Rsum_tab_const|]. intros k Hk.
    rewrite one_zero; [apply (cq_one _ _ _ _ _ Hg); now right|]. intros i Hi. unfold Pc. rewrite Epv, mget_mat_of by auto. lra. }
  unfold carea. change (Rsum _) with (csum c). rewrite Z.
  assert (0 < INR nlon) by (apply lt_0_INR; exact nlon_pos).
  pose proof (nlon_res_eq Hint) as Kq. apply Req_le.
  transitivity (rs * (2 * rs) * (INR nlon * deg2rad res)); [rewrite Kq; ring|]. field. lra.
Qed.
Lemma const_levels c n : auto_levels c c n = tab n (fun _ => c).
Proof. rewrite auto_levels_tab. apply tab_ext. intros. field. Qed.

Lemma valid_levels_ne qmin qmax levels qd : valid_levels levels -> zonalize_levels g qmin qmax levels qd <> [].
Proof.
  intros H E. destruct levels as [|n|v]; cbn [zonalize_levels valid_levels] in *.
  - apply (f_equal (@length R)) in E. rewrite auto_levels_tab, tab_length in E. cbn [length] in E.
    destruct (is_boxcount qd); lia.
  - apply (f_equal (@length R)) in E. rewrite auto_levels_tab, tab_length in E. cbn [length] in E. lia.
  - auto.
Qed.
Lemma bad_levels levels qd : ~ valid_levels levels -> zonalize_contours g pv levels qd = Err ValueError.
Proof.
  intros H. unfold zonalize_contours. rewrite (shaped_ncols nlat nlon) by (auto; exact N0).
  replace (Nat.eqb (length pv) 0) with false by (symmetry; apply Nat.eqb_neq; destruct Hpv; unfold nlat in *; lia).
  replace (Nat.eqb nlon 0) with false by (symmetry; apply Nat.eqb_neq; pose proof nlon_pos; unfold nlon; lia).
  cbn [orb]. cbv zeta. replace (zonalize_levels _ _ _ _ _) with (@nil R); [reflexivity|].
  destruct levels as [|n|v]; cbn [zonalize_levels valid_levels] in *; [tauto| |].
  - rewrite auto_levels_tab. replace (Z.to_nat n) with 0%nat by lia. reflexivity.
  - destruct v; [reflexivity|]. exfalso. apply H. easy.
Qed.
Lemma contours_inv levels qd rows yy : known_method qd -> falwa_contours g pv levels qd = Ok (rows, yy) ->
  exists qq, valid_levels levels /\ falwa_background g pv levels qd = Ok (qq, yy) /\ rows = frows qd qq yy
    /\ length qq = length yy /\ within_poles yy /\ yy <> []
    /\ (qd = "sptrapz"%string -> zonalize_contours g pv levels qd = Ok (qq, yy)
          /\ qq = zonalize_levels g (mmin pv) (mmax pv) levels qd /\ yy = map (eqy qd) qq)
    /\ (qd = "boxcount"%string -> yy = midpoints (g_lat g)).
Proof.
  intros Hm E.
  assert (G : valid_levels levels).
  { assert (D : valid_levels levels \/ ~ valid_levels levels).
    { destruct levels as [|n|[|a v]]; cbn [valid_levels]; [auto| |right; auto|left; easy].
      destruct (Z_lt_dec 0 n); auto. }
    destruct D as [D|D]; [auto|]. exfalso. unfold falwa_contours, falwa_background in E.
    rewrite bad_levels in E by auto. cbn [bind] in E. discriminate. }
  destruct (background_form levels qd Hm (valid_levels_ne _ _ _ _ G)) as [qq [y' [Eb [HL [W [Hs [Hb NE]]]]]]].
  rewrite (contours_form levels qd qq y' Hm Eb) in E.
  assert (y' = yy) by congruence. assert (rows = frows qd qq yy) by congruence. subst y'.
  exists qq. split; [auto|]. split; [auto|]. split; [auto|]. split; [auto|]. split; [auto|]. split; [auto|]. split; [|auto].
  intros ->. destruct (Hs eq_refl) as [E1 E2]. split; [|now rewrite E1].
  unfold falwa_background in Eb. destruct (zonalize_contours g pv levels "sptrapz") as [[a b]|e]; cbn [bind] in Eb; [|discriminate].
  cbn [is_boxcount String.eqb Ascii.eqb Bool.eqb] in Eb. congruence.
Qed.
End Falwa.
