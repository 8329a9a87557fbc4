(** Lemmas on zonalization. *)
From Coq Require Import Lia Lra.
From Verif Require Import Base Model_Grid Model_Region Model_Quad Spec_Grid Spec_Region Spec_Quad
  Proofs_Base Proofs_Grid Proofs_Region Proofs_Quad.
From Coquelicot Require Import Coquelicot.

Lemma res_map_ok {A B} (f : A -> res B) h l : (forall a, In a l -> f a = Ok (h a)) ->
  res_map f l = Ok (map h l).
Proof.
  induction l as [|a l IH]; intros H; [reflexivity|]. simpl. rewrite H by (now left). simpl.
  rewrite IH by (intros; apply H; now right). reflexivity.
Qed.

(** ** contour levels *)
Lemma firstn_tab {A} n m (f : nat -> A) : (n <= m)%nat -> firstn n (tab m f) = tab n f.
Proof.
  revert m f; induction n as [|n IH]; intros m f H; [reflexivity|].
  destruct m as [|m]; [lia|]. rewrite !tab_S. simpl. f_equal. apply IH. lia.
Qed.
Lemma auto_levels_tab qmin qmax n : auto_levels qmin qmax n =
  tab n (fun k => / 2 * ((qmax - qmin) * sin (/ 2 * PI * (-1 + INR (S k) * (2 / INR (n + 1)))) + qmin + qmax)).
Proof.
  unfold auto_levels, linspace_end. replace (n + 2)%nat with (S (n + 1)) by lia. rewrite tab_S. cbn [tl].
  rewrite firstn_tab by lia. rewrite tab_map. apply tab_ext. intros k Hk.
  replace (S (n + 1) - 1)%nat with (n + 1)%nat by lia. replace (1 - -1) with 2 by ring. reflexivity.
Qed.

Section Levels.
Variables (qmin qmax : R) (n : nat).
Let t k := -1 + INR (S k) * (2 / INR (n + 1)).
Lemma t_range k : (k < n)%nat -> -1 < t k < 1.
Proof.
  intros Hk. unfold t. assert (P : 0 < INR (n + 1)) by (apply lt_0_INR; lia).
  assert (A1 : 0 < INR (S k)) by (apply lt_0_INR; lia).
  assert (A2 : INR (S k) < INR (n + 1)) by (apply lt_INR; lia).
  assert (E : INR (S k) * (2 / INR (n + 1)) = 2 * (INR (S k) / INR (n + 1))) by (field; lra).
  rewrite E. assert (0 < INR (S k) / INR (n + 1) < 1); [|lra].
  split; [apply Rdiv_lt_0_compat; auto|]. apply Rlt_div_l; lra.
Qed.
Lemma t_mono k l : (k < l)%nat -> t k < t l.
Proof.
  intros H. unfold t. apply Rplus_lt_compat_l, Rmult_lt_compat_r.
  - apply Rdiv_lt_0_compat; [lra|apply lt_0_INR; lia].
  - apply lt_INR. lia.
Qed.
Lemma t_sym k : (k < n)%nat -> t (n - 1 - k) = - t k.
Proof.
  intros H. unfold t. replace (S (n - 1 - k)) with (n - k)%nat by lia. rewrite minus_INR by lia.
  rewrite S_INR, plus_INR. simpl (INR 1). assert (0 <= INR n) by apply pos_INR. field. lra.
Qed.
Lemma auto_levels_facts : qmin < qmax ->
  length (auto_levels qmin qmax n) = n
  /\ strictly_increasing (auto_levels qmin qmax n)
  /\ (forall x, In x (auto_levels qmin qmax n) -> qmin < x < qmax)
  /\ (forall k, (k < n)%nat -> nth k (auto_levels qmin qmax n) 0
        + nth (n - 1 - k) (auto_levels qmin qmax n) 0 = qmin + qmax).
Proof.
  intros Hq. rewrite auto_levels_tab. pose proof PI_RGT_0 as HP.
  assert (S : forall a b, -1 <= a -> a < b -> b <= 1 -> sin (/ 2 * PI * a) < sin (/ 2 * PI * b)).
  { intros a b H1 H2 H3. apply sin_increasing_1; nra. }
  assert (S1 : sin (/ 2 * PI * 1) = 1) by (replace (/ 2 * PI * 1) with (PI / 2) by field; apply sin_PI2).
  assert (S2 : sin (/ 2 * PI * -1) = -1).
  { replace (/ 2 * PI * -1) with (- (PI / 2)) by field. rewrite sin_neg, sin_PI2. ring. }
  split; [apply tab_length|]. split; [|split].
  - intros i j Hij Hj. rewrite tab_length in Hj. rewrite !tab_nth by lia.
    pose proof (t_range i ltac:(lia)). pose proof (t_range j ltac:(lia)). pose proof (t_mono i j Hij).
    fold (t i). fold (t j). pose proof (S (t i) (t j) ltac:(lra) ltac:(lra) ltac:(lra)). nra.
  - intros x Hx. apply tab_in in Hx. destruct Hx as [k [Hk ->]]. fold (t k).
    pose proof (t_range k Hk). pose proof (S (-1) (t k) ltac:(lra) ltac:(lra) ltac:(lra)).
    pose proof (S (t k) 1 ltac:(lra) ltac:(lra) ltac:(lra)). nra.
  - intros k Hk. rewrite !tab_nth by lia. fold (t k). fold (t (n - 1 - k)). rewrite t_sym by auto.
    replace (/ 2 * PI * - t k) with (- (/ 2 * PI * t k)) by ring. rewrite sin_neg. field.
Qed.
End Levels.

Lemma in_concat_mget nr nc (f : mat) x : shaped nr nc f ->
  (In x (concat f) <-> exists i j, (i < nr)%nat /\ (j < nc)%nat /\ x = mget f i j).
Proof.
  intros [HL HF]. rewrite in_concat. rewrite Forall_forall in HF. split.
  - intros [r [Hr Hx]]. apply (In_nth _ _ []) in Hr. destruct Hr as [i [Hi Er]].
    apply (In_nth _ _ 0) in Hx. destruct Hx as [j [Hj Ex]]. exists i, j.
    split; [lia|]. split.
    + rewrite <- (HF r); auto. rewrite <- Er. now apply nth_In.
    + unfold mget. now rewrite Er, Ex.
  - intros [i [j [Hi [Hj ->]]]]. exists (nth i f []). split; [apply nth_In; lia|].
    unfold mget. apply nth_In. rewrite HF; auto. apply nth_In. lia.
Qed.

Lemma mmin_mmax nr nc f lo hi : shaped nr nc f -> extremes nr nc f lo hi -> mmin f = lo /\ mmax f = hi.
Proof.
  intros Hs [Hb [[i1 [j1 [A1 [B1 E1]]]] [i2 [j2 [A2 [B2 E2]]]]]]. unfold mmin, mmax.
  assert (In1 : In lo (concat f)) by (apply (in_concat_mget nr nc); auto; exists i1, j1; auto).
  assert (In2 : In hi (concat f)) by (apply (in_concat_mget nr nc); auto; exists i2, j2; auto).
  assert (B : forall x, In x (concat f) -> lo <= x <= hi).
  { intros x Hx. apply (in_concat_mget nr nc) in Hx; auto. destruct Hx as [i [j [Hi [Hj ->]]]]. auto. }
  assert (Hne : concat f <> []) by (intros E; now rewrite E in In1).
  pose proof (vmin_in _ Hne) as M1. pose proof (vmax_in _ Hne) as M2.
  apply B in M1. apply B in M2.
  pose proof (vmin_le _ _ In1). pose proof (vmax_ge _ _ In2). lra.
Qed.

Section Zonalize.
Variables (res rs om : R) (nt : option Z) (g : grid).
Hypothesis Hg : mk_grid res rs om nt = Ok g.
Let F := mk_grid_facts _ _ _ _ _ Hg.
Let N0 := nlat_pos _ _ _ _ _ Hg.
Let N1 := nlat_gt1' _ _ _ _ _ Hg.
Let nlat := g_nlat g.

Definition ones_mat nc : mat := mat_of nlat nc (fun _ _ => 1).
Definition shifted nc (f : mat) (q : R) : mat := mat_of nlat nc (fun i j => mget f i j - q).

Lemma ones_like_eq nc f : shaped nlat nc f -> ones_like f = ones_mat nc.
Proof.
  intros H. apply (mat_ext nlat nc); [now apply shaped_mmap|apply shaped_mat_of|].
  intros i j Hi Hj. unfold ones_like. rewrite (mget_mmap nlat nc) by auto.
  unfold ones_mat. now rewrite mget_mat_of.
Qed.
Lemma shifted_eq nc f q : shaped nlat nc f -> mmap (fun x => x - q) f = shifted nc f q.
Proof.
  intros H. apply (mat_ext nlat nc); [now apply shaped_mmap|apply shaped_mat_of|].
  intros i j Hi Hj. rewrite (mget_mmap nlat nc) by auto. unfold shifted. now rewrite mget_mat_of.
Qed.

Definition carea m nc (f : mat) (q : R) : R :=
  rs * deg2rad res * Rsum (tab nc (fun j => cq g m (fun _ => 1) (fun i => mget f i j - q))).

Lemma quad_carea m nc f q : known_method m -> (nc <= g_nlon g)%nat ->
  quad g (A2 (ones_mat nc)) (Some (shifted nc f q)) m = Ok (carea m nc f q).
Proof.
  intros Hm Hc. rewrite (quad_form _ _ _ _ _ Hg m nc) by (auto; apply shaped_mat_of).
  unfold carea. rewrite (gf_rs _ _ _ _ F). unfold g_dlam, g_dlon. rewrite (gf_res _ _ _ _ F).
  do 3 f_equal. apply tab_ext. intros j Hj. apply cq_ext; intros i Hi.
  - unfold ones_mat. now rewrite mget_mat_of.
  - unfold shifted. now rewrite mget_mat_of.
Qed.

Lemma carea_mono m nc f p q : known_method m -> p <= q -> carea m nc f q <= carea m nc f p.
Proof.
  intros Hm H. unfold carea. pose proof (gf_rs_pos _ _ _ _ F). pose proof (gf_res_pos _ _ _ _ F).
  pose proof PI_RGT_0.
  assert (0 < deg2rad res) by (unfold deg2rad; apply Rdiv_lt_0_compat; [apply Rmult_lt_0_compat; lra|lra]).
  apply Rmult_le_compat_l; [left; now apply Rmult_lt_0_compat|].
  unfold tab. apply Rsum_le. intros j _. eapply cq_mono_z; eauto; intros; lra.
Qed.

Lemma carea_bounds m nc f q : known_method m -> (0 < nc)%nat ->
  0 <= carea m nc f q * (INR (g_nlon g) / INR nc) <= 4 * PI * (rs * rs).
Proof.
  intros Hm Hc. pose proof (gf_rs_pos _ _ _ _ F) as Hr. pose proof (gf_res_pos _ _ _ _ F) as Hres.
  pose proof PI_RGT_0 as HP. assert (Hnc : 0 < INR nc) by (apply lt_0_INR; lia).
  assert (Hd : 0 < deg2rad res) by (unfold deg2rad; apply Rdiv_lt_0_compat; [apply Rmult_lt_0_compat; lra|lra]).
  assert (Hrd : 0 < rs * deg2rad res) by now apply Rmult_lt_0_compat.
  assert (HN : 0 <= INR (g_nlon g)) by apply pos_INR.
  assert (B : 0 <= Rsum (tab nc (fun j => cq g m (fun _ => 1) (fun i => mget f i j - q))) <= INR nc * (2 * rs)).
  { split.
    - apply Rsum_nonneg. apply Forall_forall. intros x Hx. apply tab_in in Hx. destruct Hx as [j [_ ->]].
      eapply cq_bounds; eauto.
    - rewrite <- Rsum_tab_const. unfold tab. apply Rsum_le. intros j _. eapply cq_bounds; eauto. }
  unfold carea. split.
  - apply Rmult_le_pos; [apply Rmult_le_pos; lra|]. now apply frac_nonneg.
  - apply Rle_trans with (rs * deg2rad res * (INR nc * (2 * rs)) * (INR (g_nlon g) / INR nc)).
    + apply Rmult_le_compat_r; [now apply frac_nonneg|]. apply Rmult_le_compat_l; lra.
    + replace (rs * deg2rad res * (INR nc * (2 * rs)) * (INR (g_nlon g) / INR nc))
        with (4 * PI * (rs * rs) * kappa res g) by (unfold kappa, deg2rad; field; lra).
      pose proof (kappa_pos _ _ _ _ _ Hg). pose proof (sphere_area_pos _ _ _ _ _ Hg). nra.
Qed.

Lemma zonalize_form nc f levels qd : known_method qd -> (0 < nc <= g_nlon g)%nat -> shaped nlat nc f ->
  let q := zonalize_levels g (mmin f) (mmax f) levels qd in q <> [] ->
  zonalize_contours g f levels qd
  = Ok (q, map (fun t => eqlat1 g (carea qd nc f t * (INR (g_nlon g) / INR nc))) q).
Proof.
  intros Hm Hc Hf q Hq. unfold zonalize_contours. fold q.
  rewrite (shaped_ncols nlat nc) by auto.
  replace (Nat.eqb (length f) 0) with false by (symmetry; apply Nat.eqb_neq; destruct Hf; unfold nlat in *; lia).
  replace (Nat.eqb nc 0) with false by (symmetry; apply Nat.eqb_neq; lia). cbn [orb].
  rewrite (res_map_ok _ (carea qd nc f)).
  - destruct q; [easy|]. cbn [bind equivalent_latitude]. rewrite !map_map. reflexivity.
  - intros t _. rewrite (ones_like_eq nc), (shifted_eq nc) by auto. apply quad_carea; auto. lia.
Qed.

Lemma zonalize_area_lemma nc f levels qd : known_method qd -> (0 < nc <= g_nlon g)%nat -> shaped nlat nc f ->
  zonalize_levels g (mmin f) (mmax f) levels qd <> [] ->
  exists q y, zonalize_contours g f levels qd = Ok (q, y) /\ length y = length q
    /\ (match levels with LArr v => q = v | _ => True end)
    /\ (forall k, (k < length q)%nat -> exists a,
          quad g (A2 (mat_of nlat nc (fun _ _ => 1)))
               (Some (mat_of nlat nc (fun i j => mget f i j - nth k q 0))) qd = Ok a
          /\ -90 <= nth k y 0 <= 90
          /\ cap_area rs (deg2rad (nth k y 0)) = a * (INR (g_nlon g) / INR nc))
    /\ (forall k l, (k < length q)%nat -> (l < length q)%nat -> nth k q 0 <= nth l q 0 -> nth k y 0 <= nth l y 0).
Proof.
  intros Hm Hc Hf Hq. rewrite (zonalize_form nc) by auto.
  eexists. eexists. split; [reflexivity|]. split; [apply map_length|].
  split; [destruct levels; reflexivity || exact I|]. split.
  - intros k Hk. rewrite (nth_map_lt _ _ _ 0) by auto. eexists.
    split; [apply quad_carea; auto; lia|].
    apply (eqlat_cap _ _ _ _ _ Hg). apply carea_bounds; auto. lia.
  - intros k l Hk Hl H. rewrite !(nth_map_lt _ _ _ 0) by auto.
    apply (eqlat_decr _ _ _ _ _ Hg). apply Rmult_le_compat_r.
    + apply frac_nonneg; [apply pos_INR|apply lt_0_INR; lia].
    + now apply carea_mono.
Qed.

(** ** C15 *)
Lemma zonalize_levels_lemma nc f lo hi qd : known_method qd -> (0 < nc <= g_nlon g)%nat -> shaped nlat nc f ->
  extremes nlat nc f lo hi -> lo < hi ->
  (forall levels n,
    (levels = LInt (Z.of_nat n) \/ (levels = LNone /\ qd = "sptrapz"%string /\ n = nlat)
     \/ (levels = LNone /\ qd = "boxcount"%string /\ n = (2 * nlat)%nat)) -> (0 < n)%nat ->
    exists q y, zonalize_contours g f levels qd = Ok (q, y) /\ length q = n /\ strictly_increasing q
      /\ (forall x, In x q -> lo < x < hi)
      /\ (forall k, (k < n)%nat -> nth k q 0 + nth (n - 1 - k) q 0 = lo + hi))
  /\ (forall n, (n <= 0)%Z -> zonalize_contours g f (LInt n) qd = Err ValueError).
Proof.
  intros Hm Hc Hf He Hlt. destruct (mmin_mmax _ _ _ _ _ Hf He) as [E1 E2]. split.
  - intros levels n Hl Hn.
    assert (El : zonalize_levels g (mmin f) (mmax f) levels qd = auto_levels lo hi n).
    { rewrite E1, E2. destruct Hl as [->|[[-> [-> ->]]|[-> [-> ->]]]]; simpl.
      - now rewrite Nat2Z.id.
      - now rewrite Nat.mul_1_r.
      - f_equal. unfold nlat. lia. }
    destruct (auto_levels_facts lo hi n Hlt) as [L [S [B Y]]].
    assert (Hne : zonalize_levels g (mmin f) (mmax f) levels qd <> []).
    { rewrite El. intros E. rewrite E in L. simpl in L. lia. }
    eexists. eexists. rewrite (zonalize_form nc) by auto. split; [reflexivity|].
    rewrite El. auto.
  - intros n Hn. unfold zonalize_contours. rewrite (shaped_ncols nlat nc) by auto.
    replace (Nat.eqb (length f) 0) with false by (symmetry; apply Nat.eqb_neq; destruct Hf; unfold nlat in *; lia).
    replace (Nat.eqb nc 0) with false by (symmetry; apply Nat.eqb_neq; lia). cbn [orb zonalize_levels].
    replace (Z.to_nat n) with 0%nat by lia. reflexivity.
Qed.

(** ** C14 *)
Section Symmetric.
Variable p : nat -> R.
Hypothesis Hp : forall i, (S i < nlat)%nat -> p (S i) < p i.
Variable P : R -> R.
Hypothesis HP : pl_interpolant (g_phi g) (tab nlat p) P.

Lemma p_decr i j : (i <= j)%nat -> (j < nlat)%nat -> p j <= p i.
Proof.
  intros H Hj. induction j as [|j IH]; [replace i with 0%nat by lia; lra|].
  destruct (Nat.eq_dec i (S j)); [subst; lra|]. pose proof (Hp j Hj). specialize (IH ltac:(lia) ltac:(lia)). lra.
Qed.

Lemma P_seg i t : (S i < nlat)%nat -> nth (S i) (g_phi g) 0 <= t <= nth i (g_phi g) 0 ->
  p (S i) <= P t <= p i.
Proof.
  intros Hi Ht. erewrite (pl_value _ _ _ _ _ Hg p P t i) by eauto.
  pose proof (phi_step _ _ _ _ _ Hg i Hi). pose proof (Hp i Hi).
  set (xl := nth i (g_phi g) 0) in *. set (xr := nth (S i) (g_phi g) 0) in *.
  split; [apply Rle_div_r; [lra|nra]|apply Rle_div_l; [lra|nra]].
Qed.

Lemma P_incr s t : - (PI / 2) <= s -> s < t -> t <= PI / 2 -> P s < P t.
Proof.
  intros H1 H2 H3.
  destruct (phi_cover _ _ _ _ _ Hg s ltac:(lra)) as [i [Hi Hs]].
  destruct (phi_cover _ _ _ _ _ Hg t ltac:(lra)) as [j [Hj Ht]].
  pose proof (phi_step _ _ _ _ _ Hg i Hi) as Di. pose proof (phi_step _ _ _ _ _ Hg j Hj) as Dj.
  pose proof (Hp i Hi) as Pi. pose proof (Hp j Hj) as Pj.
  destruct (lt_eq_lt_dec i j) as [[Hlt|He]|Hgt].
  - (* i < j: t <= phi_j <= phi_(i+1) <= s *)
    assert (nth j (g_phi g) 0 <= nth (S i) (g_phi g) 0).
    { destruct (Nat.eq_dec j (S i)); [subst; lra|]. left.
      apply (phi_decreasing g N1 (S i) j); [lia|]. rewrite phi_length. lia. }
    lra.
  - subst j.
    rewrite (pl_value _ _ _ _ _ Hg p P s i HP Hi Hs), (pl_value _ _ _ _ _ Hg p P t i HP Hi Ht).
    set (xl := nth i (g_phi g) 0) in *. set (xr := nth (S i) (g_phi g) 0) in *.
    apply Rmult_lt_compat_r; [apply Rinv_0_lt_compat; lra|]. nra.
  - pose proof (P_seg i s Hi Hs) as Bs. pose proof (P_seg j t Hj Ht) as Bt.
    assert (Hpp : p i <= p (S j)) by (apply p_decr; lia).
    destruct (Rlt_dec (P s) (p i)); [lra|].
    destruct (Rlt_dec (p (S j)) (P t)); [lra|].
    (* then s = phi_i, t = phi_(S j) and phi_i <= phi_(S j) *)
    assert (Es : s = nth i (g_phi g) 0).
    { assert (E : P s = p i) by lra. rewrite (pl_value _ _ _ _ _ Hg p P s i HP Hi Hs) in E.
      set (xl := nth i (g_phi g) 0) in *. set (xr := nth (S i) (g_phi g) 0) in *.
      apply (f_equal (fun z => z * (xl - xr))) in E. unfold Rdiv in E. rewrite Rmult_assoc, Rinv_l in E by lra. nra. }
    assert (Et : t = nth (S j) (g_phi g) 0).
    { assert (E : P t = p (S j)) by lra. rewrite (pl_value _ _ _ _ _ Hg p P t j HP Hj Ht) in E.
      set (xl := nth j (g_phi g) 0) in *. set (xr := nth (S j) (g_phi g) 0) in *.
      apply (f_equal (fun z => z * (xl - xr))) in E. unfold Rdiv in E. rewrite Rmult_assoc, Rinv_l in E by lra. nra. }
    destruct (Nat.eq_dec i (S j)) as [->|Hne]; [lra|].
    assert (p i < p (S j)).
    { assert (p i <= p (S (S j))) by (apply p_decr; lia). pose proof (Hp (S j) ltac:(lia)). lra. }
    lra.
Qed.

(** the latitude where the interpolated profile equals q *)
Lemma P_root q : p (nlat - 1) <= q <= p 0%nat -> exists t, - (PI / 2) <= t <= PI / 2 /\ P t = q.
Proof.
  intros Hq.
  assert (exists i, (S i < nlat)%nat /\ p (S i) <= q <= p i) as [i [Hi Hb]].
  { assert (G : forall k, (k < nlat)%nat -> (0 < k)%nat -> p k <= q -> exists i, (S i < nlat)%nat /\ p (S i) <= q <= p i).
    { induction k as [|k IH]; intros Hk H0 Hpk; [lia|].
      destruct (Rle_dec q (p k)) as [Hle|Hn]; [exists k; split; [lia|lra]|].
      destruct k as [|k]; [lra|]. apply IH; [lia|lia|lra]. }
    apply (G (nlat - 1)%nat); unfold nlat in *; [lia|lia|lra]. }
  pose proof (phi_step _ _ _ _ _ Hg i Hi) as D. pose proof (Hp i Hi) as Pi.
  pose proof (phi_range g i ltac:(unfold nlat in *; lia)) as R1.
  pose proof (phi_range g (S i) Hi) as R2.
  set (xl := nth i (g_phi g) 0) in *. set (xr := nth (S i) (g_phi g) 0) in *.
  set (t := xr + (q - p (S i)) / (p i - p (S i)) * (xl - xr)).
  assert (B : 0 <= (q - p (S i)) / (p i - p (S i)) <= 1).
  { split; [apply frac_nonneg; lra|]. apply Rle_div_l; lra. }
  assert (Ht : xr <= t <= xl) by (unfold t; nra).
  exists t. split; [lra|]. rewrite (pl_value _ _ _ _ _ Hg p P t i HP Hi Ht).
  fold xl. fold xr. unfold t. field. lra.
Qed.

Lemma P_shift q : pl_interpolant (g_phi g) (tab nlat (fun i => p i - q)) (fun t => P t - q).
Proof.
  intros i Hi t Ht. rewrite (HP i Hi t Ht). rewrite phi_length in Hi. rewrite !tab_nth by (unfold nlat; lia).
  pose proof (phi_step _ _ _ _ _ Hg i Hi). field. lra.
Qed.

Lemma col_area q t : - (PI / 2) <= t <= PI / 2 -> P t = q ->
  cq g "sptrapz" (fun _ => 1) (fun i => p i - q) = rs * (1 - sin t).
Proof.
  intros Ht Hq.
  destruct (interpolant_exists _ _ _ _ _ Hg (fun _ => 1)) as [Y HY].
  pose proof (cq_is_RInt _ _ _ _ _ Hg (fun _ => 1) (fun i => p i - q) Y _ HY (P_shift q)) as I1.
  assert (I2 : is_RInt (masked rs Y (fun t => P t - q)) (- (PI / 2)) (PI / 2) (0 + rs * (sin (PI / 2) - sin t))).
  { apply is_RInt_ChaslesR with t.
    - eapply is_RInt_ext; [|apply is_RInt_zero]. intros x Hx. rewrite Rmin_left, Rmax_right in Hx by lra.
      simpl. unfold masked. pose proof (P_incr x t ltac:(lra) ltac:(lra) ltac:(lra)).
      destruct (Rle_dec 0 (P x - q)); [lra|reflexivity].
    - eapply is_RInt_ext; [|apply (is_RInt_cos_scal rs)]. intros x Hx. rewrite Rmin_left, Rmax_right in Hx by lra.
      simpl. unfold masked. pose proof (P_incr t x ltac:(lra) ltac:(lra) ltac:(lra)).
      rewrite (pl_ones _ _ _ _ _ Hg Y HY) by lra.
      destruct (Rle_dec 0 (P x - q)); [ring|lra]. }
  rewrite <- (is_RInt_unique _ _ _ _ I1). rewrite (is_RInt_unique _ _ _ _ I2), sin_PI2. ring.
Qed.

Lemma symmetric_eqlat nc q t : (0 < nc)%nat -> - (PI / 2) <= t <= PI / 2 -> P t = q ->
  eqlat1 g (carea "sptrapz" nc (mat_of nlat nc (fun i _ => p i)) q * (INR (g_nlon g) / INR nc))
  = rad2deg (asin (1 - kappa res g * (1 - sin t))).
Proof.
  intros Hnc Ht Hq. rewrite (eqlat_inside _ _ _ _ _ Hg).
  2: apply carea_bounds; [now right|auto].
  f_equal. f_equal. unfold carea.
  replace (tab nc _) with (tab nc (fun _ => rs * (1 - sin t))).
  - rewrite Rsum_tab_const. unfold kappa, deg2rad.
    pose proof (gf_rs_pos _ _ _ _ F). pose proof PI_RGT_0. assert (0 < INR nc) by (apply lt_0_INR; lia).
    field. repeat split; lra.
  - apply tab_ext. intros j Hj. rewrite <- (col_area q t Ht Hq). apply cq_ext; auto.
    intros i Hi. now rewrite mget_mat_of.
Qed.
End Symmetric.

Lemma symmetric_in_place nc p P qs : (0 < nc <= g_nlon g)%nat ->
  (forall i, (S i < nlat)%nat -> p (S i) < p i) -> pl_interpolant (g_phi g) (tab nlat p) P ->
  is_integer (360 / res) -> qs <> [] ->
  exists y, zonalize_contours g (mat_of nlat nc (fun i _ => p i)) (LArr qs) "sptrapz" = Ok (qs, y)
    /\ length y = length qs
    /\ forall k, (k < length qs)%nat -> -90 <= nth k y 0 <= 90 /\
         (p (nlat - 1)%nat <= nth k qs 0 <= p 0%nat -> P (deg2rad (nth k y 0)) = nth k qs 0).
Proof.
  intros Hnc Hp HP Hi Hq. eexists.
  rewrite (zonalize_form nc) by (auto using shaped_mat_of; now right).
  split; [reflexivity|]. split; [apply map_length|]. cbn [zonalize_levels]. intros k Hk.
  rewrite (nth_map_lt _ _ _ 0) by auto. split; [eapply eqlat_range; eauto|]. intros Hb.
  destruct (P_root p Hp P HP (nth k qs 0) Hb) as [t [Ht Et]].
  rewrite (symmetric_eqlat p Hp P HP nc _ t) by (auto; lia).
  rewrite deg2rad_rad2deg. rewrite (proj2 (kappa_one _ _ _ _ _ Hg) Hi).
  replace (1 - 1 * (1 - sin t)) with (sin t) by ring. now rewrite asin_sin.
Qed.
End Zonalize.

Lemma symmetric_refuted_lemma : exists g p q y, mk_grid 7 1 1 None = Ok g
  /\ (forall i, (S i < g_nlat g)%nat -> p (S i) < p i)
  /\ p (g_nlat g - 1)%nat <= q <= p 0%nat
  /\ zonalize_contours g (mat_of (g_nlat g) (g_nlon g) (fun i _ => p i)) (LArr (q :: nil)) "sptrapz" = Ok (q :: nil, y :: nil)
  /\ (exists P, pl_interpolant (g_phi g) (tab (g_nlat g) p) P)
  /\ forall P, pl_interpolant (g_phi g) (tab (g_nlat g) p) P -> P (deg2rad y) <> q.
Proof.
  destruct grid7 as [g [Hg [Hlon [Hlat [Hrs Hres]]]]].
  set (p := fun i : nat => - INR i).
  assert (Hp : forall i, (S i < g_nlat g)%nat -> p (S i) < p i) by (intros; unfold p; rewrite S_INR; lra).
  exists g, p, (p (g_nlat g - 1)%nat). eexists. split; [exact Hg|]. split; [exact Hp|].
  split. { split; [lra|]. rewrite Hlat. unfold p. simpl. lra. }
  split. { rewrite (zonalize_form _ _ _ _ _ Hg (g_nlon g)); [reflexivity|now right| |apply shaped_mat_of|easy].
           rewrite Hlon. lia. }
  destruct (interpolant_exists _ _ _ _ _ Hg p) as [P0 HP0]. split; [eauto|].
  intros P HP.
  assert (Pm : P (- (PI / 2)) = p (g_nlat g - 1)%nat).
  { pose proof (phi_step _ _ _ _ _ Hg 24%nat ltac:(rewrite Hlat; lia)) as D.
    pose proof (phi_last _ _ _ _ _ Hg) as L. rewrite last_nth', phi_length, Hlat in L. simpl (26 - 1)%nat in L.
    rewrite (pl_value _ _ _ _ _ Hg p P _ 24 HP ltac:(rewrite Hlat; lia)) by lra.
    rewrite Hlat, L in *. simpl (26 - 1)%nat. field. lra. }
  rewrite (symmetric_eqlat _ _ _ _ _ Hg p Hp P HP (g_nlon g) _ (- (PI / 2)));
    [|rewrite Hlon; lia|pose proof PI_RGT_0; lra|exact Pm].
  rewrite deg2rad_rad2deg, sin_neg, sin_PI2. unfold kappa. rewrite Hlon.
  set (a := 1 - INR 51 * 7 / 360 * (1 - - (1))).
  assert (Ea : a = 1 - 51 * 7 / 360 * 2) by (unfold a; rewrite INR_IZR_INZ; simpl; lra).
  assert (Ba : -1 < a < 1) by lra.
  pose proof (asin_bound_lt a Ba) as Bs.
  intros E. pose proof (P_incr _ _ _ _ _ Hg p Hp P HP (- (PI / 2)) (asin a) ltac:(lra) ltac:(lra) ltac:(lra)). lra.
Qed.
