(** General lemmas about the vocabulary of [Base]. *)
From Verif Require Import Base.
From Coq Require Import Lia Lra Psatz Permutation.

(** ** Boolean comparisons *)
Lemma Ok_inj {A} (a b : A) : Ok a = Ok b -> a = b.
Proof. intros H. now inversion H. Qed.
Lemma Rleb_true x y : Rleb x y = true <-> x <= y.
Proof. unfold Rleb; destruct (Rle_dec x y); split; intros; try easy; congruence. Qed.
Lemma Rleb_false x y : Rleb x y = false <-> y < x.
Proof. unfold Rleb; destruct (Rle_dec x y); split; intros; try easy; try lra; congruence. Qed.
Lemma Rltb_true x y : Rltb x y = true <-> x < y.
Proof. unfold Rltb; destruct (Rlt_dec x y); split; intros; try easy; congruence. Qed.
Lemma Rltb_false x y : Rltb x y = false <-> y <= x.
Proof. unfold Rltb; destruct (Rlt_dec x y); split; intros; try easy; try lra; congruence. Qed.
Lemma Reqb_true x y : Reqb x y = true <-> x = y.
Proof. unfold Reqb; destruct (Req_EM_T x y); split; intros; try easy; congruence. Qed.
Lemma Reqb_false x y : Reqb x y = false <-> x <> y.
Proof. unfold Reqb; destruct (Req_EM_T x y); split; intros; try easy; congruence. Qed.

Lemma Rleb_spec x y : BoolSpec (x <= y) (y < x) (Rleb x y).
Proof. destruct (Rleb x y) eqn:E; constructor; [now apply Rleb_true | now apply Rleb_false]. Qed.
Lemma Rltb_spec x y : BoolSpec (x < y) (y <= x) (Rltb x y).
Proof. destruct (Rltb x y) eqn:E; constructor; [now apply Rltb_true | now apply Rltb_false]. Qed.

Lemma isclose_true a b :
  isclose a b = true <-> Rabs (a - b) <= / 100000000 + / 100000 * Rabs b.
Proof. unfold isclose, isclose_tol; apply Rleb_true. Qed.

Lemma isclose_refl a : isclose a a = true.
Proof.
  apply isclose_true. replace (a - a) with 0 by ring. rewrite Rabs_R0.
  pose proof (Rabs_pos a). lra.
Qed.

(** ** tab, nth *)
Lemma tab_length {A} n (f : nat -> A) : length (tab n f) = n.
Proof. unfold tab; now rewrite map_length, seq_length. Qed.

Lemma tab_nth {A} n (f : nat -> A) i d : (i < n)%nat -> nth i (tab n f) d = f i.
Proof.
  intros H. unfold tab.
  rewrite (nth_indep _ d (f 0%nat)) by (now rewrite map_length, seq_length).
  rewrite map_nth. now rewrite seq_nth.
Qed.

Lemma tab_ext {A} n (f g : nat -> A) :
  (forall i, (i < n)%nat -> f i = g i) -> tab n f = tab n g.
Proof.
  intros H. unfold tab. apply map_ext_in. intros i Hi. apply in_seq in Hi. apply H. lia.
Qed.

Lemma tab_S {A} n (f : nat -> A) : tab (S n) f = f 0%nat :: tab n (fun i => f (S i)).
Proof. unfold tab. simpl. f_equal. rewrite <- seq_shift, map_map. reflexivity. Qed.

Lemma tab_snoc {A} n (f : nat -> A) : tab (S n) f = tab n f ++ [f n].
Proof. unfold tab. rewrite seq_S, map_app. reflexivity. Qed.

Lemma tab_map {A B} n (f : nat -> A) (g : A -> B) : map g (tab n f) = tab n (fun i => g (f i)).
Proof. unfold tab. now rewrite map_map. Qed.

Lemma tab_in {A} n (f : nat -> A) x : In x (tab n f) <-> exists i, (i < n)%nat /\ x = f i.
Proof.
  unfold tab. rewrite in_map_iff. split.
  - intros [i [Hx Hi]]. apply in_seq in Hi. exists i. split; [lia|auto].
  - intros [i [Hi Hx]]. exists i. split; auto. apply in_seq; lia.
Qed.

Lemma nth_ext_tab {A} (l : list A) d : l = tab (length l) (fun i => nth i l d).
Proof.
  apply nth_ext with (d := d) (d' := d).
  - now rewrite tab_length.
  - intros n Hn. now rewrite tab_nth.
Qed.

Lemma list_eq_nth {A} (d : A) (l m : list A) :
  length l = length m -> (forall i, (i < length l)%nat -> nth i l d = nth i m d) -> l = m.
Proof. intros HL H. now apply (nth_ext l m d d). Qed.

Lemma nth_map_lt {A B} (f : A -> B) l i d d' :
  (i < length l)%nat -> nth i (map f l) d' = f (nth i l d).
Proof.
  intros H. rewrite (nth_indep _ d' (f d)) by now rewrite map_length. apply map_nth.
Qed.

Lemma map2_length {A B C} (f : A -> B -> C) l m :
  length (map2 f l m) = Nat.min (length l) (length m).
Proof. revert m; induction l as [|a l IH]; intros [|b m]; simpl; auto. Qed.

Lemma map2_nth {A B C} (f : A -> B -> C) l m i da db dc :
  (i < length l)%nat -> (i < length m)%nat ->
  nth i (map2 f l m) dc = f (nth i l da) (nth i m db).
Proof.
  revert m i; induction l as [|a l IH]; intros [|b m] [|i]; simpl; intros; try lia; auto.
  apply IH; lia.
Qed.

Lemma map2_tab {A B C} (f : A -> B -> C) n g h :
  map2 f (tab n g) (tab n h) = tab n (fun i => f (g i) (h i)).
Proof.
  revert g h; induction n as [|n IH]; intros; [reflexivity|].
  rewrite !tab_S. simpl. now rewrite IH.
Qed.

Lemma map2_map_l {A A' B C} (f : A -> B -> C) (g : A' -> A) l m :
  map2 f (map g l) m = map2 (fun a b => f (g a) b) l m.
Proof. revert m; induction l as [|a l IH]; intros [|b m]; simpl; auto. now rewrite IH. Qed.
Lemma map2_map_r {A B B' C} (f : A -> B -> C) (g : B' -> B) l m :
  map2 f l (map g m) = map2 (fun a b => f a (g b)) l m.
Proof. revert m; induction l as [|a l IH]; intros [|b m]; simpl; auto. now rewrite IH. Qed.
Lemma map2_diag {A C} (f : A -> A -> C) l : map2 f l l = map (fun a => f a a) l.
Proof. induction l; simpl; auto. now rewrite IHl. Qed.
Lemma map_map2 {A B C D} (g : C -> D) (f : A -> B -> C) l m :
  map g (map2 f l m) = map2 (fun a b => g (f a b)) l m.
Proof. revert m; induction l as [|a l IH]; intros [|b m]; simpl; auto. now rewrite IH. Qed.
Lemma map2_ext {A B C} (f g : A -> B -> C) l m :
  (forall a b, f a b = g a b) -> map2 f l m = map2 g l m.
Proof. intros H; revert m; induction l as [|a l IH]; intros [|b m]; simpl; auto. now rewrite H, IH. Qed.

(** ** Sums *)
Lemma Rsum_app l m : Rsum (l ++ m) = Rsum l + Rsum m.
Proof. induction l as [|x l IH]; simpl; [|fold (Rsum (l ++ m)); fold (Rsum l); rewrite IH]; ring. Qed.

Lemma Rsum_cons x l : Rsum (x :: l) = x + Rsum l.
Proof. reflexivity. Qed.

Lemma Rsum_map_plus {A} (f g : A -> R) l :
  Rsum (map (fun x => f x + g x) l) = Rsum (map f l) + Rsum (map g l).
Proof. induction l as [|x l IH]; simpl map; rewrite ?Rsum_cons; [simpl|rewrite IH]; ring. Qed.
Lemma Rsum_map_scal {A} c (f : A -> R) l : Rsum (map (fun x => c * f x) l) = c * Rsum (map f l).
Proof. induction l as [|x l IH]; simpl map; rewrite ?Rsum_cons; [simpl|rewrite IH]; ring. Qed.
Lemma Rsum_map_minus {A} (f g : A -> R) l :
  Rsum (map (fun x => f x - g x) l) = Rsum (map f l) - Rsum (map g l).
Proof. induction l as [|x l IH]; simpl map; rewrite ?Rsum_cons; [simpl|rewrite IH]; ring. Qed.
Lemma Rsum_const {A} c (l : list A) : Rsum (map (fun _ => c) l) = INR (length l) * c.
Proof.
  induction l as [|x l IH]; simpl map; [simpl; ring|].
  rewrite Rsum_cons, IH. simpl length. rewrite S_INR. ring.
Qed.
Lemma Rsum_le {A} (f g : A -> R) l :
  (forall x, In x l -> f x <= g x) -> Rsum (map f l) <= Rsum (map g l).
Proof.
  induction l as [|x l IH]; simpl map; intros H; [simpl; lra|].
  rewrite !Rsum_cons. apply Rplus_le_compat; [apply H; now left | apply IH; intros; apply H; now right].
Qed.
Lemma Rsum_nonneg l : Forall (fun x => 0 <= x) l -> 0 <= Rsum l.
Proof. induction 1; simpl; [lra|]. unfold Rsum in *; lra. Qed.
Lemma Rsum_pos l : l <> [] -> Forall (fun x => 0 < x) l -> 0 < Rsum l.
Proof.
  intros Hne H. destruct H as [|x l Hx Hl]; [easy|].
  rewrite Rsum_cons. assert (0 <= Rsum l).
  { apply Rsum_nonneg. eapply Forall_impl; [|exact Hl]. simpl; intros; lra. }
  lra.
Qed.
Lemma Rsum_map_ext_in {A} (f g : A -> R) l :
  (forall x, In x l -> f x = g x) -> Rsum (map f l) = Rsum (map g l).
Proof. intros H. f_equal. now apply map_ext_in. Qed.
Lemma Rsum_swap {A B} (f : A -> B -> R) l m :
  Rsum (map (fun a => Rsum (map (fun b => f a b) m)) l)
  = Rsum (map (fun b => Rsum (map (fun a => f a b) l)) m).
Proof.
  induction l as [|a l IH]; simpl map.
  - simpl. rewrite Rsum_const. ring.
  - rewrite Rsum_cons, IH. rewrite <- Rsum_map_plus. reflexivity.
Qed.
Lemma Rsum_perm l m : Permutation l m -> Rsum l = Rsum m.
Proof. induction 1; simpl; unfold Rsum in *; lra. Qed.
Lemma Rsum_rev l : Rsum (rev l) = Rsum l.
Proof. apply Rsum_perm. symmetry. apply Permutation_rev. Qed.
Lemma Rsum_zero {A} (l : list A) : Rsum (map (fun _ => 0) l) = 0.
Proof. rewrite Rsum_const. ring. Qed.

(** telescoping sums *)
Lemma Rsum_tab_S n f : Rsum (tab (S n) f) = Rsum (tab n f) + f n.
Proof. rewrite tab_snoc, Rsum_app. simpl. ring. Qed.
Lemma Rsum_telescope n (f : nat -> R) :
  Rsum (tab n (fun i => f (S i) - f i)) = f n - f 0%nat.
Proof.
  induction n as [|n IH]; [simpl; ring|]. rewrite Rsum_tab_S, IH. ring.
Qed.
Lemma Rsum_tab_plus n f g : Rsum (tab n (fun i => f i + g i)) = Rsum (tab n f) + Rsum (tab n g).
Proof. apply Rsum_map_plus. Qed.
Lemma Rsum_tab_scal n c f : Rsum (tab n (fun i => c * f i)) = c * Rsum (tab n f).
Proof. apply Rsum_map_scal. Qed.
Lemma Rsum_tab_const n c : Rsum (tab n (fun _ => c)) = INR n * c.
Proof. unfold tab. rewrite Rsum_const. now rewrite seq_length. Qed.
Lemma Rsum_tab_swap n m (f : nat -> nat -> R) :
  Rsum (tab n (fun i => Rsum (tab m (fun j => f i j))))
  = Rsum (tab m (fun j => Rsum (tab n (fun i => f i j)))).
Proof. apply Rsum_swap. Qed.

(** ** shapes *)
Lemma shapedb_spec {A} nr nc (m : list (list A)) : shapedb nr nc m = true <-> shaped nr nc m.
Proof.
  unfold shapedb, shaped. rewrite andb_true_iff, Nat.eqb_eq, forallb_forall, Forall_forall.
  split; intros [H1 H2]; split; auto; intros x Hx; apply Nat.eqb_eq; auto.
Qed.
Lemma shaped_row {A} nr nc (m : list (list A)) i d :
  shaped nr nc m -> (i < nr)%nat -> length (nth i m d) = nc.
Proof.
  intros [HL HF] Hi. rewrite Forall_forall in HF. apply HF. apply nth_In. lia.
Qed.
Lemma shaped_mat_of nr nc f : shaped nr nc (mat_of nr nc f).
Proof.
  split; [apply tab_length|]. apply Forall_forall. intros r Hr. apply tab_in in Hr.
  destruct Hr as [i [_ ->]]. apply tab_length.
Qed.
Lemma mget_mat_of nr nc f i j : (i < nr)%nat -> (j < nc)%nat -> mget (mat_of nr nc f) i j = f i j.
Proof. intros Hi Hj. unfold mget, mat_of. rewrite tab_nth by auto. now rewrite tab_nth. Qed.
Lemma mat_ext nr nc (a b : mat) :
  shaped nr nc a -> shaped nr nc b ->
  (forall i j, (i < nr)%nat -> (j < nc)%nat -> mget a i j = mget b i j) -> a = b.
Proof.
  intros Ha Hb H. apply (list_eq_nth []).
  - destruct Ha, Hb; congruence.
  - intros i Hi. destruct Ha as [HLa HFa]. rewrite HLa in Hi.
    apply (list_eq_nth 0).
    + rewrite (shaped_row nr nc a), (shaped_row nr nc b); auto. split; auto.
    + intros j Hj. rewrite (shaped_row nr nc a) in Hj by (auto; split; auto). now apply H.
Qed.
Lemma mat_of_mget nr nc (a : mat) : shaped nr nc a -> a = mat_of nr nc (mget a).
Proof.
  intros H. apply (mat_ext nr nc); auto. apply shaped_mat_of.
  intros. now rewrite mget_mat_of.
Qed.
Lemma mat_of_ext nr nc f g :
  (forall i j, (i < nr)%nat -> (j < nc)%nat -> f i j = g i j) -> mat_of nr nc f = mat_of nr nc g.
Proof. intros H. apply tab_ext; intros i Hi. apply tab_ext; intros j Hj. auto. Qed.
Lemma shaped_ncols nr nc (m : mat) : shaped nr nc m -> (0 < nr)%nat -> ncols m = nc.
Proof. intros [HL HF] H. destruct m; simpl in *; [lia|]. now inversion HF. Qed.
Lemma ncols_mat_of nr nc f : (0 < nr)%nat -> ncols (mat_of nr nc f) = nc.
Proof. intros. eapply shaped_ncols; eauto. apply shaped_mat_of. Qed.
Lemma mcol_length m j : length (mcol m j) = length m.
Proof. apply map_length. Qed.
Lemma mcol_nth m j i : (i < length m)%nat -> nth i (mcol m j) 0 = mget m i j.
Proof. intros H. unfold mcol, mget. now rewrite (nth_map_lt _ _ _ []) by auto. Qed.
Lemma mcol_mat_of nr nc f j : (j < nc)%nat -> mcol (mat_of nr nc f) j = tab nr (fun i => f i j).
Proof.
  intros H. unfold mcol, mat_of. rewrite tab_map. apply tab_ext. intros i Hi. now rewrite tab_nth.
Qed.
Lemma shaped_mmap nr nc f m : shaped nr nc m -> shaped nr nc (mmap f m).
Proof.
  intros [HL HF]. split; [unfold mmap; now rewrite map_length|].
  unfold mmap. rewrite Forall_map. eapply Forall_impl; [|exact HF]. simpl; intros. now rewrite map_length.
Qed.
Lemma mget_mmap nr nc f m i j :
  shaped nr nc m -> (i < nr)%nat -> (j < nc)%nat -> mget (mmap f m) i j = f (mget m i j).
Proof.
  intros H Hi Hj. unfold mget, mmap. rewrite (nth_map_lt _ _ _ []) by (destruct H; lia).
  rewrite (nth_map_lt _ _ _ 0); auto. rewrite (shaped_row nr nc); auto.
Qed.
Lemma shaped_map2 {A B C} nr nc (f : A -> B -> C) a b :
  shaped nr nc a -> shaped nr nc b -> shaped nr nc (map2 (map2 f) a b).
Proof.
  intros [HLa HFa] [HLb HFb]. split; [rewrite map2_length; lia|].
  clear HLa HLb. revert b HFb. induction HFa as [|x a Hx HFa IH]; intros [|y b] HFb; simpl; constructor.
  - inversion HFb; subst. rewrite map2_length. lia.
  - inversion HFb; subst. now apply IH.
Qed.
Lemma mget_map2 nr nc (f : R -> R -> R) (a b : mat) i j :
  shaped nr nc a -> shaped nr nc b -> (i < nr)%nat -> (j < nc)%nat ->
  mget (map2 (map2 f) a b) i j = f (mget a i j) (mget b i j).
Proof.
  intros Ha Hb Hi Hj. unfold mget.
  rewrite (map2_nth (map2 f) a b i ([] : vec) ([] : vec) ([] : vec)) by (destruct Ha, Hb; lia).
  apply map2_nth; rewrite (shaped_row nr nc); auto.
Qed.
Lemma shaped_mscale nr nc c m : shaped nr nc m -> shaped nr nc (mscale c m).
Proof. apply shaped_mmap. Qed.
Lemma mget_mscale nr nc c m i j :
  shaped nr nc m -> (i < nr)%nat -> (j < nc)%nat -> mget (mscale c m) i j = c * mget m i j.
Proof. apply (mget_mmap nr nc (Rmult c)). Qed.

(** ** pairs *)
Lemma pairs_length {A} (l : list A) : length (pairs l) = (length l - 1)%nat.
Proof.
  induction l as [|a [|b l] IH]; auto. cbn [pairs length] in *. rewrite IH. lia.
Qed.
Lemma pairs_nth {A} (l : list A) i d :
  (S i < length l)%nat -> nth i (pairs l) (d, d) = (nth i l d, nth (S i) l d).
Proof.
  revert i; induction l as [|a [|b l] IH]; intros i H; cbn [length] in *; try lia.
  destruct i as [|i]; [reflexivity|].
  change (pairs (a :: b :: l)) with ((a, b) :: pairs (b :: l)).
  change (nth (S i) ((a, b) :: pairs (b :: l)) (d, d)) with (nth i (pairs (b :: l)) (d, d)).
  rewrite IH by (cbn [length]; lia). reflexivity.
Qed.
Lemma pairs_tab {A} n (f : nat -> A) : pairs (tab (S n) f) = tab n (fun i => (f i, f (S i))).
Proof.
  revert f; induction n as [|n IH]; intros f; [reflexivity|].
  rewrite (tab_S (S n)), (tab_S n (fun i => (f i, f (S i)))).
  rewrite <- (IH (fun i => f (S i))). rewrite (tab_S n). reflexivity.
Qed.

(** ** min / max of arrays *)
Lemma fold_Rmin_le t : forall x y, In y (x :: t) -> fold_left Rmin t x <= y.
Proof.
  induction t as [|z t IH]; intros x y H; simpl in *.
  - destruct H as [->|[]]; lra.
  - destruct H as [->|[->|H]].
    + eapply Rle_trans; [apply (IH _ (Rmin y z)); now left | apply Rmin_l].
    + eapply Rle_trans; [apply (IH _ (Rmin x y)); now left | apply Rmin_r].
    + apply IH. now right.
Qed.
Lemma fold_Rmax_ge t : forall x y, In y (x :: t) -> y <= fold_left Rmax t x.
Proof.
  induction t as [|z t IH]; intros x y H; simpl in *.
  - destruct H as [->|[]]; lra.
  - destruct H as [->|[->|H]].
    + eapply Rle_trans; [apply Rmax_l|apply (IH _ (Rmax y z)); now left].
    + eapply Rle_trans; [apply Rmax_r|apply (IH _ (Rmax x y)); now left].
    + apply IH. now right.
Qed.
Lemma fold_Rmin_in t : forall x, In (fold_left Rmin t x) (x :: t).
Proof.
  induction t as [|z t IH]; intros x; simpl in *; [now left|].
  destruct (IH (Rmin x z)) as [H|H]; [|now right; right].
  rewrite <- H. unfold Rmin. destruct (Rle_dec x z); auto.
Qed.
Lemma fold_Rmax_in t : forall x, In (fold_left Rmax t x) (x :: t).
Proof.
  induction t as [|z t IH]; intros x; simpl in *; [now left|].
  destruct (IH (Rmax x z)) as [H|H]; [|now right; right].
  rewrite <- H. unfold Rmax. destruct (Rle_dec x z); auto.
Qed.
Lemma vmin_le v x : In x v -> vmin v <= x.
Proof. destruct v; [easy|]. apply fold_Rmin_le. Qed.
Lemma vmax_ge v x : In x v -> x <= vmax v.
Proof. destruct v; [easy|]. apply fold_Rmax_ge. Qed.
Lemma vmin_in v : v <> [] -> In (vmin v) v.
Proof. destruct v; [easy|]. intros _. apply fold_Rmin_in. Qed.
Lemma vmax_in v : v <> [] -> In (vmax v) v.
Proof. destruct v; [easy|]. intros _. apply fold_Rmax_in. Qed.

(** ** floor *)
Lemma Int_part_spec x : IZR (Int_part x) <= x < IZR (Int_part x) + 1.
Proof. pose proof (base_Int_part x). lra. Qed.
Lemma Int_part_unique x z : IZR z <= x < IZR z + 1 -> Int_part x = z.
Proof.
  intros [H1 H2]. pose proof (Int_part_spec x) as [H3 H4].
  assert (IZR (Int_part x) < IZR (z + 1)) by (rewrite plus_IZR; lra).
  assert (IZR z < IZR (Int_part x + 1)) by (rewrite plus_IZR; lra).
  apply lt_IZR in H. apply lt_IZR in H0. lia.
Qed.
Lemma Int_part_IZR z : Int_part (IZR z) = z.
Proof. apply Int_part_unique. lra. Qed.
Lemma py_int_nonneg x : 0 <= x -> py_int x = Int_part x.
Proof. intros H. unfold py_int. destruct (Rle_dec 0 x); [easy|lra]. Qed.

(** ** degrees and radians *)
Lemma deg2rad_le a b : a <= b <-> deg2rad a <= deg2rad b.
Proof.
  unfold deg2rad. pose proof PI_RGT_0. split; intros.
  - apply Rmult_le_compat_r; [lra|]. apply Rmult_le_compat_r; lra.
  - apply (Rmult_le_reg_r (PI / 180)); lra.
Qed.
Lemma deg2rad_lt a b : a < b <-> deg2rad a < deg2rad b.
Proof.
  pose proof (deg2rad_le a b). pose proof (deg2rad_le b a). split; intros; apply Rnot_le_lt; intros ?; apply H0 in H2 || apply H0 in H2; lra.
Qed.
Lemma deg2rad_90 : deg2rad 90 = PI / 2.
Proof. unfold deg2rad. field. Qed.
Lemma deg2rad_m90 : deg2rad (-90) = - (PI / 2).
Proof. unfold deg2rad. field. Qed.
Lemma deg2rad_rad2deg x : deg2rad (rad2deg x) = x.
Proof. unfold deg2rad, rad2deg. pose proof PI_RGT_0. field. lra. Qed.
Lemma rad2deg_deg2rad x : rad2deg (deg2rad x) = x.
Proof. unfold deg2rad, rad2deg. pose proof PI_RGT_0. field. lra. Qed.
Lemma deg2rad_plus a b : deg2rad (a + b) = deg2rad a + deg2rad b.
Proof. unfold deg2rad. field. Qed.
Lemma deg2rad_opp a : deg2rad (- a) = - deg2rad a.
Proof. unfold deg2rad. field. Qed.
Lemma deg2rad_mult c a : deg2rad (c * a) = c * deg2rad a.
Proof. unfold deg2rad. field. Qed.
Lemma deg2rad_0 : deg2rad 0 = 0.
Proof. unfold deg2rad. field. Qed.
