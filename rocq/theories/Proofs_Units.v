(** Change of units in the contour-based diagnostics. *)
From Coq Require Export String.
From Coq Require Import Permutation.
From Verif Require Import Base Model_Grid Model_Quad Model_Falwa Spec_Sym Spec_Units Proofs_Base Proofs_Grid.
From Verif Require Import Model_Region.
From Coq Require Import List Lia Lra.
Open Scope R_scope.

Lemma Rleb_scale a z : 0 < a -> Rleb 0 (a * z) = Rleb 0 z.
Proof. intros Ha. destruct (Rleb 0 z) eqn:E; [apply Rleb_true in E; apply Rleb_true; nra|apply Rleb_false in E; apply Rleb_false; nra]. Qed.
Lemma mcol_scale a (m : mat) j : mcol (mmap (Rmult a) m) j = map (Rmult a) (mcol m j).
Proof.
  unfold mcol, mmap. rewrite !map_map. apply map_ext. intros r. destruct (Nat.lt_ge_cases j (length r)) as [L|L].
  - now rewrite nth_map_lt with (d := 0).
  - rewrite !nth_overflow by (rewrite ?map_length; lia). ring.
Qed.
Lemma combine_map_r {A B C} (f : B -> C) (l : list A) m : combine l (map f m) = map (fun p => (fst p, f (snd p))) (combine l m).
Proof. revert m. induction l as [|x l IH]; intros [|y m]; cbn; [reflexivity..|]. now rewrite IH. Qed.
Lemma combine_map_l {A B C} (f : A -> C) (l : list A) (m : list B) : combine (map f l) m = map (fun p => (f (fst p), snd p)) (combine l m).
Proof. revert m. induction l as [|x l IH]; intros [|y m]; cbn; [reflexivity..|]. now rewrite IH. Qed.
Lemma pairs_map {A B} (f : A -> B) l : pairs (map f l) = map (fun p => (f (fst p), f (snd p))) (pairs l).
Proof. induction l as [|x l IH]; [reflexivity|]. destruct l as [|y l]; [reflexivity|]. cbn [map pairs] in *. now rewrite IH. Qed.

Section Scale.
Variables (a : R) (Ha : 0 < a).
Lemma seg_scale rs xl yl zl xr yr zr :
  seg_trapz rs (xl, (a * yl, a * zl)) (xr, (a * yr, a * zr)) = a * seg_trapz rs (xl, (yl, zl)) (xr, (yr, zr)).
Proof.
  unfold seg_trapz. cbn [fst snd]. rewrite !Rleb_scale by assumption.
  assert (D : forall z, a * z / (a * zr - a * zl) = z / (zr - zl)).
  { intros z. rewrite <- Rmult_minus_distr_l. unfold Rdiv. destruct (Req_dec (zr - zl) 0) as [E|E]; [rewrite E, Rmult_0_r, !Rinv_0; ring|]. field. split; lra. }
  rewrite !D. rewrite <- (Rmult_minus_distr_l a yr yl).
  destruct (Rleb 0 zl), (Rleb 0 zr); cbn [negb andb orb]; unfold Rdiv; ring.
Qed.
Lemma seg_scale_z rs xl yl zl xr yr zr :
  seg_trapz rs (xl, (yl, a * zl)) (xr, (yr, a * zr)) = seg_trapz rs (xl, (yl, zl)) (xr, (yr, zr)).
Proof.
  unfold seg_trapz. cbn [fst snd]. rewrite !Rleb_scale by assumption.
  assert (D : forall z, a * z / (a * zr - a * zl) = z / (zr - zl)).
  { intros z. rewrite <- Rmult_minus_distr_l. unfold Rdiv. destruct (Req_dec (zr - zl) 0) as [E|E]; [rewrite E, Rmult_0_r, !Rinv_0; ring|]. field. split; lra. }
  now rewrite !D.
Qed.
Lemma seg_scale_y rs xl yl zl xr yr zr :
  seg_trapz rs (xl, (a * yl, zl)) (xr, (a * yr, zr)) = a * seg_trapz rs (xl, (yl, zl)) (xr, (yr, zr)).
Proof. rewrite <- seg_scale. symmetry. apply seg_scale_z. Qed.
Lemma col_trapz_scale_z rs x y z : col_trapz rs x y (map (Rmult a) z) = col_trapz rs x y z.
Proof.
  unfold col_trapz. rewrite !combine_map_r, pairs_map, map_map. f_equal. apply map_ext. intros [[? [? ?]] [? [? ?]]]. apply seg_scale_z.
Qed.
Lemma col_trapz_scale_y rs x y z : col_trapz rs x (map (Rmult a) y) z = a * col_trapz rs x y z.
Proof.
  unfold col_trapz. rewrite combine_map_l, combine_map_r, pairs_map, map_map, <- Rsum_map_scal. f_equal. apply map_ext. intros [[? [? ?]] [? [? ?]]]. apply seg_scale_y.
Qed.
Lemma col_box_scale_z g y z : col_box g y (map (Rmult a) z) = col_box g y z.
Proof.
  unfold col_box. do 3 f_equal. rewrite combine_map_r, map2_map_r. apply map2_ext. intros u [v w]. cbn. now rewrite Rleb_scale.
Qed.
Lemma map2_scale (f : R -> R * R -> R) l m : Rsum (map2 (fun x p => a * f x p) l m) = a * Rsum (map2 f l m).
Proof. revert m. induction l as [|x l IH]; intros [|y m]; cbn; try ring. fold (Rsum (map2 (fun x p => a * f x p) l m)). rewrite IH. unfold Rsum. ring. Qed.
Lemma col_box_scale_y g y z : col_box g (map (Rmult a) y) z = a * col_box g y z.
Proof.
  unfold col_box. rewrite combine_map_l, map2_map_r. 
  rewrite (map2_ext _ (fun x p => a * (if Rleb 0 (snd p) then x * fst p else 0))); [rewrite map2_scale; unfold Rdiv; ring|].
  intros u [v w]. cbn. destruct (Rleb 0 w); ring.
Qed.
Lemma shapedb_mmap f nr nc (m : mat) : shapedb nr nc (mmap f m) = shapedb nr nc m.
Proof.
  unfold shapedb, mmap. rewrite map_length. f_equal. induction m as [|r m IH]; [reflexivity|]. cbn. now rewrite IH, map_length.
Qed.
Lemma ncols_mmap f (m : mat) : ncols (mmap f m) = ncols m.
Proof. destruct m; [reflexivity|]. cbn. apply map_length. Qed.
Lemma mmap_length f (m : mat) : length (mmap f m) = length m.
Proof. apply map_length. Qed.
Lemma qm_scale_z g y z meth : quad_meridional g (A2 y) (Some (mmap (Rmult a) z)) meth = quad_meridional g (A2 y) (Some z) meth.
Proof.
  unfold quad_meridional. rewrite shapedb_mmap. f_equal.
  destruct (is_boxcount meth); [|destruct (is_sptrapz meth); [|reflexivity]].
  - destruct (shapedb _ _ z); [|reflexivity]. f_equal. apply tab_ext. intros j _. now rewrite mcol_scale, col_box_scale_z.
  - destruct (Nat.leb _ _); [|reflexivity]. destruct (shapedb _ _ z); [|reflexivity]. f_equal. apply tab_ext. intros j _. now rewrite mcol_scale, col_trapz_scale_z.
Qed.
Lemma qm_scale_y g y z meth : quad_meridional g (A2 (mmap (Rmult a) y)) (Some z) meth = on_ok (map (Rmult a)) (quad_meridional g (A2 y) (Some z) meth).
Proof.
  unfold quad_meridional. rewrite ncols_mmap, mmap_length. destruct (Nat.eqb _ _); [|reflexivity]. cbn [passert].
  destruct (is_boxcount meth); [|destruct (is_sptrapz meth); [|reflexivity]].
  - destruct (shapedb _ _ z); [|reflexivity]. cbn [on_ok]. f_equal. rewrite tab_map. apply tab_ext. intros j _. now rewrite mcol_scale, col_box_scale_y.
  - destruct (Nat.leb _ _); [|reflexivity]. destruct (shapedb _ _ z); [|reflexivity]. cbn [on_ok]. f_equal. rewrite tab_map. apply tab_ext. intros j _. now rewrite mcol_scale, col_trapz_scale_y.
Qed.
Lemma quad_scale_z g y z meth : quad g (A2 y) (Some (mmap (Rmult a) z)) meth = quad g (A2 y) (Some z) meth.
Proof. unfold quad. now rewrite qm_scale_z. Qed.
End Scale.

(** ** Interpolation *)
Lemma sort_map (k : R * R -> R * R) l : (forall n, fst (k n) = fst n) -> sort_nodes (map k l) = map k (sort_nodes l).
Proof.
  intros K. assert (I : forall n l, insert_node (k n) (map k l) = map k (insert_node n l)).
  { intros n l'. induction l' as [|q t IH]; [reflexivity|]. cbn. rewrite !K. destruct (Rleb (fst n) (fst q)); [reflexivity|]. cbn. now rewrite IH. }
  unfold sort_nodes. induction l as [|n l IH]; [reflexivity|]. cbn. now rewrite IH, I.
Qed.
Section Affine.
Variables (a b : R).
Definition anode (n : R * R) : R * R := (fst n, affine a b (snd n)).
Lemma padded_affine lat field pole :
  padded_nodes lat (map (affine a b) field) (affine a b (fst pole), affine a b (snd pole)) = map anode (padded_nodes lat field pole).
Proof.
  unfold padded_nodes. cbn [fst snd]. rewrite <- (sort_map anode) by reflexivity. f_equal.
  change (affine a b (fst pole) :: map (affine a b) field ++ [affine a b (snd pole)]) with (map (affine a b) (fst pole :: field) ++ map (affine a b) [snd pole]).
  now rewrite <- map_app, combine_map_r.
Qed.
Lemma map_fst_anode l : map fst (map anode l) = map fst l.
Proof. rewrite map_map. now apply map_ext. Qed.
Lemma count_le p l : (count_if p l <= length l)%nat.
Proof. unfold count_if. induction l; cbn; [lia|]. destruct (p a0); cbn; lia. Qed.
Lemma line_affine lo hi x : line_through (anode lo) (anode hi) x = affine a b (line_through lo hi x).
Proof. unfold line_through, anode, affine. cbn [fst snd]. unfold Rdiv. ring. Qed.
Lemma eval_np_affine nodes x : nodes <> [] -> eval_np (map anode nodes) x = affine a b (eval_np nodes x).
Proof.
  intros N. unfold eval_np. rewrite map_fst_anode, map_length.
  assert (L : (0 < length nodes)%nat) by (destruct nodes; [easy|cbn; lia]).
  pose proof (count_le (fun t => Rleb t x) (map fst nodes)) as C. rewrite map_length in C.
  set (j := (count_if _ _ - 1)%nat) in *. assert (J : (j < length nodes)%nat) by lia.
  rewrite (nth_map_lt _ _ _ (0, 0)) by assumption. change (fst (anode ?n)) with (fst n).
  destruct (Nat.eqb_spec j (length nodes - 1)) as [E|E]; [reflexivity|]. destruct (Reqb _ x); [reflexivity|].
  rewrite (nth_map_lt _ _ _ (0, 0)) by lia. apply line_affine.
Qed.
Lemma sort_length l : length (sort_nodes l) = length l.
Proof.
  assert (I : forall n l, length (insert_node n l) = S (length l)).
  { intros n l'. induction l' as [|q t IH]; [reflexivity|]. cbn. destruct (Rleb _ _); cbn; [reflexivity|now rewrite IH]. }
  unfold sort_nodes. induction l as [|n l IH]; [reflexivity|]. cbn. now rewrite I, IH.
Qed.
Lemma padded_nonempty lat field pole : padded_nodes lat field pole <> [].
Proof. unfold padded_nodes. intros E. apply (f_equal (@length _)) in E. rewrite sort_length in E. cbn in E. discriminate. Qed.
Lemma last_map {A B} (k : A -> B) l d e : l <> [] -> last (map k l) e = k (last l d).
Proof. induction l as [|x l IH]; [easy|]. intros _. destruct l; [reflexivity|]. cbn [map last] in *. apply IH. discriminate. Qed.
Lemma in_bounds_affine nodes x : nodes <> [] -> in_bounds (map anode nodes) x = in_bounds nodes x.
Proof. intros N. unfold in_bounds. rewrite (last_map anode nodes (0, 0)) by assumption. destruct nodes; [easy|]. reflexivity. Qed.
Lemma interp1_affine field lat pole xs :
  interp1d_1d (map (affine a b) field) lat (affine a b (fst pole), affine a b (snd pole)) xs = on_ok (map (affine a b)) (interp1d_1d field lat pole xs).
Proof.
  unfold interp1d_1d. rewrite map_length. destruct (negb _); [reflexivity|]. rewrite padded_affine.
  pose proof (padded_nonempty lat field pole) as N.
  replace (forallb (in_bounds (map anode (padded_nodes lat field pole))) xs) with (forallb (in_bounds (padded_nodes lat field pole)) xs).
  2: { induction xs as [|x xs IH]; [reflexivity|]. cbn [forallb]. now rewrite IH, in_bounds_affine. }
  destruct (forallb _ xs); [|reflexivity]. cbn [on_ok]. f_equal. rewrite map_map. apply map_ext. intros x. now apply eval_np_affine.
Qed.
End Affine.
Lemma affine_0 a x : affine a 0 x = a * x.
Proof. unfold affine. ring. Qed.
Lemma eval_linear_scale a nodes x : eval_linear (map (anode a 0) nodes) x = option_map (Rmult a) (eval_linear nodes x).
Proof.
  unfold eval_linear. rewrite map_fst_anode, map_length. set (k := Nat.min _ _).
  assert (E : (0, 0) = anode a 0 (0, 0)) by (unfold anode, affine; cbn [fst snd]; f_equal; ring).
  assert (M : forall i, nth i (map (anode a 0) nodes) (0, 0) = anode a 0 (nth i nodes (0, 0))) by (intros i; rewrite E at 1; apply map_nth).
  rewrite !M. change (fst (anode a 0 ?n)) with (fst n). destruct (Reqb _ _); [reflexivity|]. cbn [option_map]. f_equal. rewrite line_affine. apply affine_0.
Qed.
Lemma interp2_scale a m lat xs :
  interp1d_2d (mmap (Rmult a) m) lat (0, 0) xs = on_ok (map (map (option_map (Rmult a)))) (interp1d_2d m lat (0, 0) xs).
Proof.
  unfold interp1d_2d. rewrite mmap_length, ncols_mmap. destruct (negb _); [reflexivity|]. destruct (forallb _ xs); [|reflexivity]. cbn [on_ok]. f_equal.
  rewrite map_map. apply map_ext. intros x. rewrite tab_map. apply tab_ext. intros j _. rewrite <- eval_linear_scale. f_equal.
  rewrite mcol_scale. rewrite <- padded_affine. cbn [fst snd]. f_equal; [apply map_ext; intros; now rewrite affine_0|f_equal; unfold affine; ring].
Qed.
Lemma interp1_scale a v lat xs :
  interp1d_1d (map (Rmult a) v) lat (0, 0) xs = on_ok (map (Rmult a)) (interp1d_1d v lat (0, 0) xs).
Proof.
  replace (on_ok (map (Rmult a)) (interp1d_1d v lat (0, 0) xs)) with (on_ok (map (affine a 0)) (interp1d_1d v lat (0, 0) xs)) by
    (destruct (interp1d_1d v lat (0, 0) xs); [cbn; f_equal; apply map_ext; intros; apply affine_0|reflexivity]).
  rewrite <- interp1_affine. cbn [fst snd]. f_equal; [apply map_ext; intros; now rewrite affine_0|f_equal; unfold affine; ring].
Qed.

(** ** Zonalization and wave activity *)
Section Zonalize.
Variables (g : grid) (a b : R) (Ha : 0 < a).
Lemma vmin_affine v : v <> [] -> vmin (map (affine a b) v) = affine a b (vmin v).
Proof.
  intros N. assert (N' : map (affine a b) v <> []) by (destruct v; easy).
  apply Rle_antisym; [apply vmin_le, in_map, vmin_in, N|].
  pose proof (vmin_in _ N') as I. apply in_map_iff in I. destruct I as (x & E & Hx). rewrite <- E. pose proof (vmin_le v x Hx). unfold affine. nra.
Qed.
Lemma vmax_affine v : v <> [] -> vmax (map (affine a b) v) = affine a b (vmax v).
Proof.
  intros N. assert (N' : map (affine a b) v <> []) by (destruct v; easy).
  apply Rle_antisym; [|apply vmax_ge, in_map, vmax_in, N].
  pose proof (vmax_in _ N') as I. apply in_map_iff in I. destruct I as (x & E & Hx). rewrite <- E. pose proof (vmax_ge v x Hx). unfold affine. nra.
Qed.
Lemma extremes_affine m : concat m <> [] -> mmin (mmap (affine a b) m) = affine a b (mmin m) /\ mmax (mmap (affine a b) m) = affine a b (mmax m).
Proof. intros N. unfold mmin, mmax, mmap. rewrite <- concat_map. split; [now apply vmin_affine|now apply vmax_affine]. Qed.
Lemma auto_levels_affine lo hi n : auto_levels (affine a b lo) (affine a b hi) n = map (affine a b) (auto_levels lo hi n).
Proof. unfold auto_levels. rewrite map_map. apply map_ext. intros t. unfold affine. field. Qed.
Lemma levels_affine lo hi l qd :
  zonalize_levels g (affine a b lo) (affine a b hi) (convert_levels a b l) qd = map (affine a b) (zonalize_levels g lo hi l qd).
Proof. destruct l; cbn [zonalize_levels convert_levels]; rewrite ?auto_levels_affine; reflexivity. Qed.
Lemma anomaly_affine m q : mmap (fun x => x - affine a b q) (mmap (affine a b) m) = mmap (Rmult a) (mmap (fun x => x - q) m).
Proof. unfold mmap. rewrite !map_map. apply map_ext. intros r. rewrite !map_map. apply map_ext. intros x. unfold affine. ring. Qed.
Lemma ones_affine m : ones_like (mmap (affine a b) m) = ones_like m.
Proof. unfold ones_like, mmap. rewrite map_map. apply map_ext. intros r. now rewrite map_map. Qed.
Lemma res_map_map {A B C} (f : B -> res C) (k : A -> B) l : res_map f (map k l) = res_map (fun x => f (k x)) l.
Proof. induction l as [|x l IH]; [reflexivity|]. cbn. now rewrite IH. Qed.
Lemma res_map_ext {A B} (f h : A -> res B) l : (forall a, f a = h a) -> res_map f l = res_map h l.
Proof. intros H. induction l as [|x l IH]; [reflexivity|]. cbn. now rewrite H, IH. Qed.
Lemma contours_affine m l qd :
  zonalize_contours g (mmap (affine a b) m) (convert_levels a b l) qd = on_ok (fun r => (map (affine a b) (fst r), snd r)) (zonalize_contours g m l qd).
Proof.
  unfold zonalize_contours. rewrite mmap_length, ncols_mmap. destruct (_ || _) eqn:Z; [reflexivity|].
  apply Bool.orb_false_elim in Z. destruct Z as [Z1 Z2].
  assert (N : concat m <> []) by (destruct m as [|[|x r] m]; cbn in *; easy).
  destruct (extremes_affine m N) as [-> ->]. rewrite levels_affine. destruct (zonalize_levels g (mmin m) (mmax m) l qd) as [|q0 q] eqn:Q; [reflexivity|].
  cbn [map]. change (affine a b q0 :: map (affine a b) q) with (map (affine a b) (q0 :: q)). rewrite res_map_map, ones_affine.
  rewrite (res_map_ext _ (fun t => quad g (A2 (ones_like m)) (Some (mmap (fun x => x - t) m)) qd)).
  2: { intros t. rewrite anomaly_affine. now apply quad_scale_z. }
  destruct (res_map _ (q0 :: q)) as [ar|]; reflexivity.
Qed.
Lemma contours_nonempty m l qd r : zonalize_contours g m l qd = Ok r -> concat m <> [].
Proof. unfold zonalize_contours. destruct m as [|[|x t] m]; cbn; easy. Qed.
Lemma zonalize_affine m l qd :
  zonalize g (mmap (affine a b) m) (convert_levels a b l) qd = on_ok (map (affine a b)) (zonalize g m l qd).
Proof.
  unfold zonalize. rewrite contours_affine. destruct (zonalize_contours g m l qd) as [[q y]|] eqn:E; [|reflexivity]. cbn [on_ok bind fst snd].
  destruct (extremes_affine m (contours_nonempty _ _ _ _ E)) as [-> ->]. unfold interpolate_meridional_1d. now rewrite <- interp1_affine.
Qed.
Lemma background_affine m l qd :
  falwa_background g (mmap (affine a b) m) (convert_levels a b l) qd = on_ok (fun r => (map (affine a b) (fst r), snd r)) (falwa_background g m l qd).
Proof.
  unfold falwa_background. rewrite contours_affine. destruct (zonalize_contours g m l qd) as [[q y]|] eqn:E; [|reflexivity]. cbn [on_ok bind fst snd].
  destruct (is_boxcount qd); [|reflexivity]. destruct (extremes_affine m (contours_nonempty _ _ _ _ E)) as [-> ->].
  pose proof (interp1_affine a b q y (mmax m, mmin m) (midpoints (g_lat g))) as I. cbn [fst snd] in I. rewrite I.
  now destruct (interp1d_1d q y _ _).
Qed.
Lemma vsub_scale u v : vsub (map (Rmult a) u) (map (Rmult a) v) = map (Rmult a) (vsub u v).
Proof. unfold vsub. revert v. induction u as [|x u IH]; intros [|y v]; cbn; try reflexivity. rewrite IH. f_equal. ring. Qed.
Lemma row_affine m qd q y : falwa_row g (mmap (affine a b) m) qd (affine a b q) y = on_ok (map (Rmult a)) (falwa_row g m qd q y).
Proof.
  unfold falwa_row. rewrite anomaly_affine. rewrite qm_scale_z, qm_scale_y by assumption.
  destruct (quad_meridional g (A2 (mmap _ m)) (Some (mmap _ m)) qd) as [u|]; [|reflexivity]. cbn [on_ok bind]. rewrite qm_scale_y by assumption.
  destruct (quad_meridional g (A2 (mmap _ m)) (Some (mmap _ (g_lat2 g))) qd) as [v|]; [|reflexivity]. cbn [on_ok bind]. f_equal.
  rewrite vsub_scale, !map_map. apply map_ext. intros x. unfold Rdiv. ring.
Qed.
Lemma falwa_contours_affine m l qd :
  falwa_contours g (mmap (affine a b) m) (convert_levels a b l) qd = on_ok (fun r => (mmap (Rmult a) (fst r), snd r)) (falwa_contours g m l qd).
Proof.
  unfold falwa_contours. rewrite background_affine. destruct (falwa_background g m l qd) as [[qq yy]|]; [|reflexivity]. cbn [on_ok bind fst snd].
  rewrite combine_map_l, res_map_map.
  assert (H : forall L, res_map (fun x => falwa_row g (mmap (affine a b) m) qd (affine a b (fst x)) (snd x)) L
              = on_ok (mmap (Rmult a)) (res_map (fun p => falwa_row g m qd (fst p) (snd p)) L)).
  { induction L as [|x L IH]; [reflexivity|]. cbn [res_map]. rewrite row_affine, IH. destruct (falwa_row g m qd (fst x) (snd x)); [|reflexivity]. cbn [on_ok bind].
    now destruct (res_map (fun p => falwa_row g m qd (fst p) (snd p)) L). }
  cbn [fst snd]. rewrite H. now destruct (res_map _ (combine qq yy)).
Qed.
Lemma falwa_affine m l qd :
  falwa g (mmap (affine a b) m) (convert_levels a b l) qd = on_ok (map (map (option_map (Rmult a)))) (falwa g m l qd).
Proof.
  unfold falwa. rewrite falwa_contours_affine. destruct (falwa_contours g m l qd) as [[rows yy]|]; [|reflexivity]. cbn [on_ok bind fst snd]. apply interp2_scale.
Qed.
Lemma fawa_affine m l qd : fawa g (mmap (affine a b) m) (convert_levels a b l) qd = on_ok (map (Rmult a)) (fawa g m l qd).
Proof.
  unfold fawa, fawa_contours. rewrite falwa_contours_affine. destruct (falwa_contours g m l qd) as [[rows yy]|]; [|reflexivity]. cbn [on_ok bind fst snd].
  replace (map vmean (mmap (Rmult a) rows)) with (map (Rmult a) (map vmean rows)); [apply interp1_scale|].
  unfold mmap. rewrite !map_map. apply map_ext. intros r. unfold vmean. rewrite map_length, Rsum_map_scal, map_id. unfold Rdiv. ring.
Qed.
End Zonalize.
