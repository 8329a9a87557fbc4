(** Symmetries of the contour-based diagnostics. *)
From Coq Require Export String.
From Coq Require Import Permutation.
From Verif Require Import Base Model_Grid Model_Quad Model_Falwa Spec_Sym Proofs_Base Proofs_Grid.
From Verif Require Import Model_Region.
From Coq Require Import List Lia Lra.
Open Scope R_scope.

Lemma reorder_length {A} (d : A) p l : length (reorder d p l) = length l.
Proof. unfold reorder. now rewrite map_length, seq_length. Qed.
Lemma reorder_nth {A} (d : A) p l j : (j < length l)%nat -> nth j (reorder d p l) d = nth (p j) l d.
Proof. intros H. unfold reorder. change (map _ (seq 0 (length l))) with (tab (length l) (fun j => nth (p j) l d)). now rewrite tab_nth. Qed.
Lemma reorder_tab {A} (d : A) p n f : permutes n p -> reorder d p (tab n f) = tab n (fun j => f (p j)).
Proof.
  intros [P _]. unfold reorder. rewrite tab_length. apply map_ext_in. intros j Hj. apply in_seq in Hj. rewrite tab_nth; [reflexivity|]. apply P. lia.
Qed.
Lemma NoDup_map_local (p : nat -> nat) l : NoDup l -> (forall i j, In i l -> In j l -> p i = p j -> i = j) -> NoDup (map p l).
Proof.
  induction 1 as [|a l N D IH]; intros I; cbn; constructor.
  - rewrite in_map_iff. intros (x & E & Hx). apply N. rewrite (I a x); auto; cbn; auto.
  - apply IH. intros i j Hi Hj. apply I; now right.
Qed.
Lemma permutes_perm n p : permutes n p -> Permutation (map p (seq 0 n)) (seq 0 n).
Proof.
  intros [P I]. apply NoDup_Permutation_bis.
  - apply NoDup_map_local; [apply seq_NoDup|]. intros i j Hi Hj. apply in_seq in Hi, Hj. apply I; lia.
  - now rewrite map_length.
  - intros x Hx. apply in_map_iff in Hx. destruct Hx as (j & <- & Hj). apply in_seq in Hj. apply in_seq. specialize (P j). lia.
Qed.
Lemma reorder_perm {A} (d : A) p l : permutes (length l) p -> Permutation (reorder d p l) l.
Proof.
  intros P. unfold reorder. rewrite <- (map_map p (fun i => nth i l d)).
  transitivity (map (fun i => nth i l d) (seq 0 (length l))); [apply Permutation_map; now apply permutes_perm|].
  assert (E : map (fun i => nth i l d) (seq 0 (length l)) = l); [|now rewrite E].
  apply nth_ext with (d := d) (d' := d); [now rewrite map_length, seq_length|]. intros i Hi. rewrite map_length, seq_length in Hi.
  change (nth i (tab (length l) (fun i => nth i l d)) d = nth i l d). now rewrite tab_nth.
Qed.
Lemma reorder_map {A B} (d : A) (e : B) p f l : permutes (length l) p -> reorder e p (map f l) = map f (reorder d p l).
Proof.
  intros [P _]. unfold reorder. rewrite map_length, map_map. apply map_ext_in. intros j Hj. apply in_seq in Hj. now rewrite nth_map_lt with (d := d) by (apply P; lia).
Qed.
Lemma relabel_shaped {A} (d : A) p nr nc m : shaped nr nc m -> shaped nr nc (relabel d p m).
Proof.
  intros [L F]. split; [unfold relabel; now rewrite map_length|]. apply Forall_forall. intros r Hr. apply in_map_iff in Hr. destruct Hr as (x & <- & Hx).
  rewrite reorder_length. rewrite Forall_forall in F. now apply F.
Qed.
Lemma relabel_ncols p (m : mat) : ncols (relabel 0 p m) = ncols m.
Proof. destruct m; [reflexivity|]. cbn. apply reorder_length. Qed.
Lemma relabel_mcol p nr nc (m : mat) j : shaped nr nc m -> (j < nc)%nat -> mcol (relabel 0 p m) j = mcol m (p j).
Proof.
  intros [_ F] Hj. unfold mcol, relabel. rewrite map_map. apply map_ext_in. intros r Hr. rewrite Forall_forall in F. rewrite reorder_nth; [reflexivity|]. now rewrite (F r Hr).
Qed.
Lemma relabel_mmap p nr nc f (m : mat) : shaped nr nc m -> permutes nc p -> relabel 0 p (mmap f m) = mmap f (relabel 0 p m).
Proof.
  intros [_ F] P. unfold relabel, mmap. rewrite !map_map. apply map_ext_in. intros r Hr. rewrite Forall_forall in F. apply reorder_map. now rewrite (F r Hr).
Qed.
Lemma relabel_concat p nr nc (m : mat) : shaped nr nc m -> permutes nc p -> Permutation (concat (relabel 0 p m)) (concat m).
Proof.
  intros [_ F] P. clear nr. induction m as [|r m IH]; [constructor|]. inversion F as [|? ? Fr Fm]; subst. cbn. apply Permutation_app; [|now apply IH].
  now apply reorder_perm.
Qed.
Lemma vmin_perm l m : Permutation l m -> vmin l = vmin m.
Proof.
  intros P. destruct l as [|a l].
  - now rewrite (Permutation_nil P).
  - assert (N : m <> []) by (intros ->; symmetry in P; now apply Permutation_nil in P).
    apply Rle_antisym; apply vmin_le.
    + apply Permutation_in with m; [now symmetry|now apply vmin_in].
    + apply Permutation_in with (a :: l); [assumption|now apply vmin_in].
Qed.
Lemma vmax_perm l m : Permutation l m -> vmax l = vmax m.
Proof.
  intros P. destruct l as [|a l].
  - now rewrite (Permutation_nil P).
  - assert (N : m <> []) by (intros ->; symmetry in P; now apply Permutation_nil in P).
    apply Rle_antisym; apply vmax_ge.
    + apply Permutation_in with (a :: l); [assumption|now apply vmax_in].
    + apply Permutation_in with m; [now symmetry|now apply vmax_in].
Qed.
Lemma relabel_extremes p nr nc (m : mat) : shaped nr nc m -> permutes nc p -> mmin (relabel 0 p m) = mmin m /\ mmax (relabel 0 p m) = mmax m.
Proof. intros S P. unfold mmin, mmax. split; [apply vmin_perm|apply vmax_perm]; now apply (relabel_concat p nr nc). Qed.

Section Relabel.
Variables (g : grid) (p : nat -> nat) (nc : nat) (P : permutes nc p) (Hl : (0 < g_nlat g)%nat).
Lemma relabel_quad_meridional (m z : mat) meth : shaped (g_nlat g) nc m -> shaped (g_nlat g) nc z ->
  quad_meridional g (A2 (relabel 0 p m)) (Some (relabel 0 p z)) meth = on_ok (reorder 0 p) (quad_meridional g (A2 m) (Some z) meth).
Proof.
  intros Sm Sz. pose proof (relabel_shaped 0 p _ _ _ Sm) as Sm'. pose proof (relabel_shaped 0 p _ _ _ Sz) as Sz'.
  unfold quad_meridional. rewrite relabel_ncols, (shaped_ncols _ _ _ Sm Hl). rewrite (proj2 (shapedb_spec _ _ _) Sz), (proj2 (shapedb_spec _ _ _) Sz').
  rewrite (proj1 Sm), (proj1 Sm'), Nat.eqb_refl. cbn [passert].
  destruct (is_boxcount meth).
  - cbn [on_ok]. f_equal. rewrite reorder_tab by assumption. apply tab_ext. intros j Hj. now rewrite (relabel_mcol p _ _ _ _ Sm Hj), (relabel_mcol p _ _ _ _ Sz Hj).
  - destruct (is_sptrapz meth); [|reflexivity]. destruct (Nat.leb nc (g_nlon g)); [|reflexivity]. cbn [andb on_ok]. f_equal. rewrite reorder_tab by assumption.
    apply tab_ext. intros j Hj. now rewrite (relabel_mcol p _ _ _ _ Sm Hj), (relabel_mcol p _ _ _ _ Sz Hj).
Qed.
Lemma quad_meridional_length (m z : mat) meth v : shaped (g_nlat g) nc m -> quad_meridional g (A2 m) (Some z) meth = Ok v -> length v = nc.
Proof.
  intros Sm. unfold quad_meridional. rewrite (shaped_ncols _ _ _ Sm Hl). unfold passert. destruct (Nat.eqb _ _); [|discriminate].
  destruct (is_boxcount meth); [|destruct (is_sptrapz meth); [|discriminate]].
  - destruct (shapedb _ _ z); [|discriminate]. intros [= <-]. apply tab_length.
  - destruct (Nat.leb nc (g_nlon g)); [|discriminate]. destruct (shapedb (g_nlat g) nc z); [|discriminate]. intros [= <-]. apply tab_length.
Qed.
Lemma relabel_quad (m z : mat) meth : shaped (g_nlat g) nc m -> shaped (g_nlat g) nc z ->
  quad g (A2 (relabel 0 p m)) (Some (relabel 0 p z)) meth = quad g (A2 m) (Some z) meth.
Proof.
  intros Sm Sz. unfold quad. rewrite relabel_quad_meridional by assumption. destruct (quad_meridional g (A2 m) (Some z) meth) as [v|] eqn:E; [|reflexivity].
  cbn [on_ok bind]. do 2 f_equal. apply Rsum_perm. apply reorder_perm. now rewrite (quad_meridional_length _ _ _ _ Sm E).
Qed.
Lemma res_map_ext {A B} (f h : A -> res B) l : (forall a, f a = h a) -> res_map f l = res_map h l.
Proof. intros H. induction l as [|a l IH]; [reflexivity|]. cbn. now rewrite H, IH. Qed.
Lemma relabel_zonalize_contours m levels qd : shaped (g_nlat g) nc m ->
  zonalize_contours g (relabel 0 p m) levels qd = zonalize_contours g m levels qd.
Proof.
  intros Sm. unfold zonalize_contours. destruct (relabel_extremes p _ _ _ Sm P) as [-> ->]. rewrite relabel_ncols.
  unfold relabel at 1. rewrite map_length. destruct (_ || _); [reflexivity|]. destruct (zonalize_levels g (mmin m) (mmax m) levels qd) as [|q0 q]; [reflexivity|].
  f_equal. apply res_map_ext. intros t. unfold ones_like.
  rewrite <- !(relabel_mmap p (g_nlat g) nc) by assumption. apply relabel_quad; now apply shaped_mmap.
Qed.
Lemma relabel_zonalize m levels qd : shaped (g_nlat g) nc m -> zonalize g (relabel 0 p m) levels qd = zonalize g m levels qd.
Proof. intros Sm. unfold zonalize. rewrite relabel_zonalize_contours by assumption. destruct (relabel_extremes p _ _ _ Sm P) as [-> ->]. reflexivity. Qed.
Lemma relabel_background m levels qd : shaped (g_nlat g) nc m -> falwa_background g (relabel 0 p m) levels qd = falwa_background g m levels qd.
Proof. intros Sm. unfold falwa_background. rewrite relabel_zonalize_contours by assumption. destruct (relabel_extremes p _ _ _ Sm P) as [-> ->]. reflexivity. Qed.
Lemma vsub_reorder a b : length a = nc -> length b = nc -> vsub (reorder 0 p a) (reorder 0 p b) = reorder 0 p (vsub a b).
Proof.
  intros La Lb. assert (L : length (vsub a b) = nc) by (unfold vsub; rewrite map2_length; lia).
  apply nth_ext with (d := 0) (d' := 0); [unfold vsub at 1; rewrite map2_length, !reorder_length; lia|].
  intros i Hi. unfold vsub at 1 in Hi. rewrite map2_length, !reorder_length, La, Lb, Nat.min_id in Hi.
  rewrite reorder_nth by lia. unfold vsub. assert (Pi : (p i < nc)%nat) by (apply P; lia).
  rewrite !(map2_nth _ _ _ _ 0 0) by (rewrite ?reorder_length; lia).
  now rewrite !reorder_nth by lia.
Qed.
End Relabel.

Section Falwa.
Variables (g : grid) (p : nat -> nat) (P : permutes (g_nlon g) p) (Hl : (0 < g_nlat g)%nat).
Lemma relabel_lat2 f : relabel 0 p (mmap f (g_lat2 g)) = mmap f (g_lat2 g).
Proof.
  assert (S : shaped (g_nlat g) (g_nlon g) (mmap f (g_lat2 g))) by apply shaped_mmap, lat2_shaped.
  unfold relabel. rewrite <- (map_id (mmap f (g_lat2 g))) at 2. apply map_ext_in. intros r Hr.
  pose proof (proj2 S) as F. rewrite Forall_forall in F. specialize (F r Hr).
  unfold mmap, g_lat2 in Hr. rewrite map_map in Hr. apply in_map_iff in Hr. destruct Hr as (y & <- & _). rewrite map_map in *.
  assert (E : forall j, (j < g_nlon g)%nat -> nth j (map (fun _ : R => f y) (g_lon g)) 0 = f y) by (intros j Hj; now rewrite (nth_map_lt _ _ _ 0) by now rewrite lon_length).
  apply nth_ext with (d := 0) (d' := 0); [apply reorder_length|]. intros j Hj. rewrite reorder_length in Hj. rewrite reorder_nth by assumption.
  rewrite F in Hj. rewrite !E; auto. now apply P.
Qed.
Lemma relabel_row m qd q y : shaped (g_nlat g) (g_nlon g) m ->
  falwa_row g (relabel 0 p m) qd q y = on_ok (reorder 0 p) (falwa_row g m qd q y).
Proof.
  intros Sm. unfold falwa_row. rewrite <- (relabel_mmap p (g_nlat g) (g_nlon g)) by assumption.
  assert (Sa : shaped (g_nlat g) (g_nlon g) (mmap (fun x => x - q) m)) by now apply shaped_mmap.
  assert (Sl : shaped (g_nlat g) (g_nlon g) (mmap (fun l => l - y) (g_lat2 g))) by apply shaped_mmap, lat2_shaped.
  rewrite (relabel_quad_meridional g p (g_nlon g) P Hl) by assumption.
  destruct (quad_meridional g (A2 (mmap _ m)) (Some (mmap _ m)) qd) as [a|] eqn:Ea; [|reflexivity]. cbn [on_ok bind].
  pose proof (relabel_quad_meridional g p (g_nlon g) P Hl (mmap (fun x => x - q) m) (mmap (fun l => l - y) (g_lat2 g)) qd Sa Sl) as R. rewrite relabel_lat2 in R. rewrite R. clear R.
  destruct (quad_meridional g (A2 (mmap _ m)) (Some (mmap _ (g_lat2 g))) qd) as [b|] eqn:Eb; [|reflexivity]. cbn [on_ok bind].
  apply (quad_meridional_length g (g_nlon g) Hl) in Ea; [|assumption]. apply (quad_meridional_length g (g_nlon g) Hl) in Eb; [|assumption]. f_equal.
  rewrite (vsub_reorder g p (g_nlon g) P) by assumption. symmetry. apply reorder_map. unfold vsub. rewrite map2_length, Ea, Eb, Nat.min_id. exact P.
Qed.
Lemma row_length m qd q y v : shaped (g_nlat g) (g_nlon g) m -> falwa_row g m qd q y = Ok v -> length v = g_nlon g.
Proof.
  intros Sm. unfold falwa_row. assert (Sa : shaped (g_nlat g) (g_nlon g) (mmap (fun x => x - q) m)) by now apply shaped_mmap.
  destruct (quad_meridional g (A2 (mmap _ m)) (Some (mmap _ m)) qd) as [a|] eqn:Ea; [|discriminate]. cbn [bind].
  destruct (quad_meridional g (A2 (mmap _ m)) (Some (mmap _ (g_lat2 g))) qd) as [b|] eqn:Eb; [|discriminate]. cbn [bind].
  apply (quad_meridional_length g (g_nlon g) Hl) in Ea; [|assumption]. apply (quad_meridional_length g (g_nlon g) Hl) in Eb; [|assumption].
  intros [= <-]. unfold vsub. rewrite map_length, map2_length. lia.
Qed.
Lemma res_map_on_ok {A B} (f h : A -> res B) (k : B -> B) l : (forall a, f a = on_ok k (h a)) -> res_map f l = on_ok (map k) (res_map h l).
Proof.
  intros H. induction l as [|a l IH]; [reflexivity|]. cbn. rewrite H, IH. destruct (h a); [|reflexivity]. cbn. now destruct (res_map h l).
Qed.
Lemma res_map_Forall {A B} (f : A -> res B) (Q : B -> Prop) l r : (forall a b, f a = Ok b -> Q b) -> res_map f l = Ok r -> Forall Q r /\ length r = length l.
Proof.
  intros H. revert r. induction l as [|a l IH]; intros r E; cbn in E; [injection E as <-; now split; [constructor|]|].
  destruct (f a) as [b|] eqn:F; [|discriminate]. destruct (res_map f l) as [bs|]; [|discriminate]. injection E as <-. destruct (IH bs eq_refl) as [I1 I2].
  split; [constructor; [now apply (H a)|assumption]|cbn; now rewrite I2].
Qed.
Lemma relabel_falwa_contours m levels qd : shaped (g_nlat g) (g_nlon g) m ->
  falwa_contours g (relabel 0 p m) levels qd = on_ok (fun r => (relabel 0 p (fst r), snd r)) (falwa_contours g m levels qd).
Proof.
  intros Sm. unfold falwa_contours. rewrite (relabel_background g p (g_nlon g) P Hl) by assumption.
  destruct (falwa_background g m levels qd) as [[qq yy]|]; [|reflexivity]. cbn [bind].
  rewrite (res_map_on_ok _ (fun a => falwa_row g m qd (fst a) (snd a)) (reorder 0 p)) by (intros a; now apply relabel_row).
  now destruct (res_map _ (combine qq yy)).
Qed.
Lemma falwa_contours_shape m levels qd r : shaped (g_nlat g) (g_nlon g) m -> falwa_contours g m levels qd = Ok r -> shaped (length (fst r)) (g_nlon g) (fst r).
Proof.
  intros Sm. unfold falwa_contours. destruct (falwa_background g m levels qd) as [[qq yy]|]; [|discriminate]. cbn [bind].
  destruct (res_map _ (combine qq yy)) as [rows|] eqn:E; [|discriminate]. cbn [bind]. intros [= <-]. cbn [fst].
  apply (res_map_Forall _ (fun v => length v = g_nlon g)) in E; [split; [reflexivity|apply E]|]. intros a b. now apply row_length.
Qed.
Lemma relabel_interp2 nr m lat pole xs : shaped nr (g_nlon g) m ->
  interp1d_2d (relabel 0 p m) lat pole xs = on_ok (relabel None p) (interp1d_2d m lat pole xs).
Proof.
  intros Sm. unfold interp1d_2d. unfold relabel at 1. rewrite map_length. destruct (negb _); [reflexivity|].
  destruct (forallb _ xs); [|reflexivity]. cbn [on_ok]. f_equal. rewrite relabel_ncols. unfold relabel at 2. rewrite map_map. apply map_ext. intros x.
  destruct m as [|row m]; [reflexivity|]. assert (N : ncols (row :: m) = g_nlon g) by (cbn; destruct Sm as [_ F]; now inversion F).
  rewrite N. rewrite reorder_tab by exact P. apply tab_ext. intros j Hj. now rewrite (relabel_mcol p _ _ _ _ Sm Hj).
Qed.
Lemma relabel_falwa m levels qd : shaped (g_nlat g) (g_nlon g) m ->
  falwa g (relabel 0 p m) levels qd = on_ok (relabel None p) (falwa g m levels qd).
Proof.
  intros Sm. unfold falwa. rewrite relabel_falwa_contours by assumption. destruct (falwa_contours g m levels qd) as [[rows yy]|] eqn:E; [|reflexivity].
  cbn [on_ok bind fst snd]. unfold interpolate_meridional_2d. apply (relabel_interp2 (length rows)). now apply (falwa_contours_shape m levels qd (rows, yy)).
Qed.
Lemma relabel_fawa m levels qd : shaped (g_nlat g) (g_nlon g) m -> fawa g (relabel 0 p m) levels qd = fawa g m levels qd.
Proof.
  intros Sm. unfold fawa, fawa_contours. rewrite relabel_falwa_contours by assumption. destruct (falwa_contours g m levels qd) as [[rows yy]|] eqn:E; [|reflexivity].
  cbn [on_ok bind fst snd]. pose proof (falwa_contours_shape m levels qd (rows, yy) Sm E) as [_ F]. cbn [fst] in F. f_equal. unfold relabel. rewrite map_map. apply map_ext_in. intros r Hr.
  rewrite Forall_forall in F. specialize (F r Hr). unfold vmean. rewrite reorder_length. f_equal. apply Rsum_perm, reorder_perm. now rewrite F.
Qed.
End Falwa.
