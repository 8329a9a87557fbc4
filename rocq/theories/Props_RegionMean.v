(** GridRegion.mean: C119. *)
From Coq Require Export String.
From Verif Require Import Base Model_Grid Spec_Grid Proofs_Base Proofs_Grid Spec_Region Proofs_Region Props_Region Model_Region.
From Coq Require Import List Lia Lra.
Import ListNotations.
Open Scope R_scope.

(** sum over all gridpoints at which the mask is true *)
Definition masked_sum (g : grid) (mask : list (list bool)) (f : nat -> nat -> R) : R :=
  sum_over (seq 0 (g_nlat g)) (fun i => sum_over (seq 0 (g_nlon g)) (fun j => if nth j (nth i mask []) false then f i j else 0)).

Lemma sum_zero {A} (I : list A) : sum_over I (fun _ => 0) = 0.
Proof. rewrite sum_over_const. ring. Qed.
Lemma sum_single n i x : (i < n)%nat -> sum_over (seq 0 n) (fun k => if Nat.eqb k i then x else 0) = x.
Proof.
  intros Hi. replace n with (i + S (n - i - 1))%nat by lia. rewrite sum_over_Rsum, seq_app, map_app, Rsum_app, <- !sum_over_Rsum. cbn [seq plus sum_over].
  rewrite Nat.eqb_refl. rewrite (sum_over_ext (seq 0 i) _ (fun _ => 0)).
  2:{ intros k Hk. apply in_seq in Hk. destruct (Nat.eqb_spec k i); [lia|reflexivity]. }
  rewrite (sum_over_ext (seq (S i) _) _ (fun _ => 0)).
  2:{ intros k Hk. apply in_seq in Hk. destruct (Nat.eqb_spec k i); [lia|reflexivity]. }
  rewrite !sum_zero. ring.
Qed.
Lemma sum_selected n I (f : nat -> R) : NoDup I -> (forall i, In i I -> (i < n)%nat) ->
  sum_over (seq 0 n) (fun i => if existsb (Nat.eqb i) I then f i else 0) = sum_over I f.
Proof.
  induction I as [|a I IH]; intros ND B; [cbn [existsb sum_over]; apply sum_zero|]. inversion ND as [|? ? NI ND']; subst. cbn [sum_over].
  rewrite <- IH by (auto; intros; apply B; now right). rewrite <- (sum_single n a (f a)) at 1 by (apply B; now left). rewrite <- sum_over_plus. apply sum_over_ext. intros i _. cbn [existsb].
  destruct (Nat.eqb_spec i a) as [->|N]; cbn [orb]; [|ring]. destruct (existsb (Nat.eqb a) I) eqn:E; [|ring].
  apply existsb_exists in E. destruct E as [x [Hx Ex]]. apply Nat.eqb_eq in Ex. now subst.
Qed.
Lemma masked_selected res rs om nt g arg rg f : mk_grid res rs om nt = Ok g -> region_getitem g arg = Ok rg ->
  masked_sum g (region_mask rg) f = sum_over (rg_lat_idx rg) (fun i => sum_over (rg_lon_idx rg) (fun j => f i j)).
Proof.
  intros Hg Hr. pose proof (mk_grid_facts _ _ _ _ _ Hg) as F. destruct (region_facts_of g arg rg ltac:(destruct F; lia) ltac:(destruct F; lia) Hr) as [EG LN LB CN CB _ _].
  unfold masked_sum. rewrite <- (sum_selected (g_nlat g) (rg_lat_idx rg)) by assumption. apply sum_over_ext. intros i Hi. apply in_seq in Hi.
  transitivity (sum_over (seq 0 (g_nlon g)) (fun j => if existsb (Nat.eqb i) (rg_lat_idx rg) && existsb (Nat.eqb j) (rg_lon_idx rg) then f i j else 0)).
  - apply sum_over_ext. intros j Hj. apply in_seq in Hj. unfold region_mask. rewrite EG, !tab_nth by lia. reflexivity.
  - destruct (existsb (Nat.eqb i) (rg_lat_idx rg)); cbn [andb]; [now apply sum_selected|apply sum_zero].
Qed.

(** ** C119 *)
(** The mean over a region that is not empty is the average, weighted by gridpoint
    area, of the values at the gridpoints of the mask. *)
Theorem C119_mean : forall res rs om nt g, mk_grid res rs om nt = Ok g -> forall arg rg m,
  region_getitem g arg = Ok rg -> shaped (g_nlat g) (g_nlon g) m -> region_lat rg <> [] -> region_lon rg <> [] ->
  let area i := nth i (gridpoint_area g) 0 in
  0 < masked_sum g (region_mask rg) (fun i _ => area i)
  /\ exists x, region_mean rg (A2 m) = Ok (MScalar x)
     /\ x * masked_sum g (region_mask rg) (fun i _ => area i) = masked_sum g (region_mask rg) (fun i j => area i * mget m i j).
Proof.
  intros res rs om nt g Hg arg rg m Hr Hm NL NC area. pose proof (mk_grid_facts _ _ _ _ _ Hg) as F.
  destruct (region_facts_of g arg rg ltac:(destruct F; lia) ltac:(destruct F; lia) Hr) as [EG _ _ _ _ _ _].
  assert (N1 : rg_lat_idx rg <> []) by (intros E; apply NL; unfold region_lat; now rewrite E). assert (N2 : rg_lon_idx rg <> []) by (intros E; apply NC; unfold region_lon; now rewrite E).
  destruct (C07_mean_formula _ _ _ _ _ Hg (Some rg) m (ex_intro _ arg Hr) Hm N1 N2) as [P [E _]]. cbn [sel_rows sel_cols] in P, E. fold area in P, E.
  rewrite !(masked_selected _ _ _ _ _ _ _ _ Hg Hr). assert (D : 0 < sum_over (rg_lat_idx rg) (fun i => sum_over (rg_lon_idx rg) (fun _ => area i))).
  { apply sum_over_pos; [assumption|]. intros i Hi. apply sum_over_pos; [assumption|]. intros _ _. now apply P. }
  split; [exact D|]. exists (weighted_mean area (rg_lat_idx rg) (rg_lon_idx rg) (mget m)). split; [unfold region_mean; rewrite EG; exact E|].
  unfold weighted_mean. field. lra.
Qed.
Print Assumptions C119_mean.
(** The mean of a field from which the region has been extracted already is the
    same, unless it has the shape of the grid.  Arrays of other shapes are
    rejected, and the mean over an empty region is not a number. *)
Theorem C119_other : forall res rs om nt g, mk_grid res rs om nt = Ok g -> forall arg rg, region_getitem g arg = Ok rg ->
  (forall m m', shaped (g_nlat g) (g_nlon g) m -> extract rg [A2 m] = Ok (ExOne (A2 m')) -> ~ shaped (g_nlat g) (g_nlon g) m' ->
     region_mean rg (A2 m') = region_mean rg (A2 m))
  /\ (forall f, match f with
      | A2 m => ~ shaped (g_nlat g) (g_nlon g) m /\ ~ shaped (length (region_lat rg)) (length (region_lon rg)) m
      | _ => True end -> region_mean rg f = Err AssertionError)
  /\ (forall m, shaped (g_nlat g) (g_nlon g) m -> region_lat rg = [] \/ region_lon rg = [] -> region_mean rg (A2 m) = Err NotANumber).
Proof.
  intros res rs om nt g Hg arg rg Hr. pose proof (mk_grid_facts _ _ _ _ _ Hg) as F.
  destruct (region_facts_of g arg rg ltac:(destruct F; lia) ltac:(destruct F; lia) Hr) as [EG _ _ _ _ _ _]. unfold region_mean. rewrite EG. split; [|split].
  - intros m m' Hm E N. exact (C86_mean_of_extracted_partial _ _ _ _ _ _ _ _ _ AxNone Hg Hr Hm E N).
  - intros f Hf. apply C08_mean_bad_shape. destruct f; auto. unfold region_lat, region_lon, take_idx in Hf. rewrite !map_length in Hf. exact Hf.
  - intros m Hm E. cbn [grid_mean]. rewrite (proj2 (shapedb_spec _ _ _) Hm). unfold extract, extract_one. rewrite EG, (proj2 (shapedb_spec _ _ _) Hm). cbn [bind].
    unfold region_area, extract, extract_one. rewrite EG. replace (length (gridpoint_area g)) with (g_nlat g) by (symmetry; apply gpa_length). rewrite Nat.eqb_refl. cbn [bind].
    unfold mean_core, region_shape, take_idx. cbn [snd]. rewrite !map_length. destruct E as [E|E]; unfold region_lat, region_lon, take_idx in E; apply map_eq_nil in E; rewrite E; cbn [length Nat.eqb orb]; [reflexivity|]. now rewrite Bool.orb_true_r.
Qed.
Print Assumptions C119_other.

(** The mean over four gridpoints, at two longitudes on both sides of 0E, of a
    field that is 1 at one of these longitudes and 0 elsewhere. *)
Example C119_nonvacuous : mk_grid 90 1 0 None = Ok (gridA 1)
  /\ region_getitem (gridA 1) (IdxTuple [SelSlice (BNum 200) (BNum 45) false; SelStr "N"]) = Ok regionP
  /\ shaped 3 4 (mat_of 3 4 (fun _ j => if Nat.eqb j 3 then 1 else 0)) /\ region_lat regionP <> [] /\ region_lon regionP <> []
  /\ region_mean regionP (A2 (mat_of 3 4 (fun _ j => if Nat.eqb j 3 then 1 else 0))) = Ok (MScalar (1 / 2)).
Proof.
  assert (Hg : mk_grid 90 1 0 None = Ok (gridA 1)) by (apply gridA_ok; lra). set (m := mat_of 3 4 (fun _ j => if Nat.eqb j 3 then 1 else 0)).
  assert (Sm : shaped 3 4 m) by apply shaped_mat_of. split; [exact Hg|]. split; [apply regionP_ok|]. split; [exact Sm|]. split; [easy|]. split; [easy|].
  destruct (C119_mean _ _ _ _ _ Hg _ _ m regionP_ok Sm ltac:(easy) ltac:(easy)) as [P [x [-> E]]]. do 2 f_equal. revert P E.
  rewrite !(masked_selected _ _ _ _ _ _ _ _ Hg regionP_ok). cbn [regionP rg_lat_idx rg_lon_idx sum_over]. unfold m. rewrite !mget_mat_of by lia. cbn [Nat.eqb].
  set (a := nth 0 (gridpoint_area (gridA 1)) 0). set (b := nth 1 (gridpoint_area (gridA 1)) 0). intros P E. apply Rmult_eq_reg_r with (2 * (a + b)); lra.
Qed.
