(** The stationary wavenumber and waveguides on the rotated and on the reflected sphere (C118). *)
From Coq Require Export String.
From Verif Require Import Base Model_Grid Model_Ks Spec_Grid Spec_Sym Spec_Symmetry Spec_Ks Spec_Mirror Spec_KsSym.
From Verif Require Import Proofs_Base Proofs_Grid Proofs_Sym Proofs_Quad Proofs_Mirror Proofs_Ks.
From Verif Require Import Model_Region.
From Coq Require Import List Lia Lra.
Import ListNotations.
Open Scope R_scope.

Lemma map2_app {A B C} (f : A -> B -> C) : forall l m l' m', length l = length m -> map2 f (l ++ l') (m ++ m') = map2 f l m ++ map2 f l' m'.
Proof. induction l as [|a l IH]; destruct m as [|b m]; intros l' m' L; try discriminate; [reflexivity|]. cbn. f_equal. apply IH. now injection L. Qed.
Lemma map2_rev {A B C} (f : A -> B -> C) : forall l m, length l = length m -> map2 f (rev l) (rev m) = rev (map2 f l m).
Proof.
  induction l as [|a l IH]; destruct m as [|b m]; intros L; try discriminate; [reflexivity|]. cbn. injection L as L.
  rewrite map2_app by now rewrite !rev_length. now rewrite IH.
Qed.
Lemma bcast2_rev f v w : bcast2 f (rev v) (rev w) = on_ok (@rev R) (bcast2 f v w).
Proof.
  unfold bcast2. rewrite !rev_length. destruct (Nat.eqb (length v) (length w)) eqn:E.
  - apply Nat.eqb_eq in E. cbn [on_ok]. now rewrite map2_rev.
  - destruct v as [|x [|x' v]].
    + destruct w as [|y [|y' w]]; [discriminate|reflexivity|]. cbn [on_ok rev app]. assert (LW : exists a b l, (rev w ++ [y']) ++ [y] = a :: b :: l) by (destruct (rev w) as [|a' [|b' l']]; cbn; eauto). destruct LW as [a' [b' [l' ->]]]. reflexivity.
    + cbn [rev app]. cbn [on_ok]. now rewrite map_rev.
    + assert (LV : exists a b l, rev (x :: x' :: v) = a :: b :: l).
      { cbn [rev]. destruct (rev v) as [|a [|b l]]; cbn; eauto. }
      destruct LV as [a [b [l EV]]]. rewrite EV. destruct w as [|y [|y' w]].
      * reflexivity.
      * cbn [rev app on_ok]. rewrite <- EV. now rewrite map_rev.
      * assert (LW : exists a b l, rev (y :: y' :: w) = a :: b :: l) by (cbn [rev]; destruct (rev w) as [|a' [|b' l']]; cbn; eauto).
        destruct LW as [a' [b' [l' ->]]]. reflexivity.
Qed.
Lemma bcast2_scale f s t r v w : (forall x y, f (s * x) (t * y) = r * f x y) ->
  bcast2 f (map (Rmult s) v) (map (Rmult t) w) = on_ok (map (Rmult r)) (bcast2 f v w).
Proof.
  intros H. unfold bcast2. rewrite !map_length. destruct (Nat.eqb (length v) (length w)).
  - cbn [on_ok]. f_equal. revert w. induction v as [|a v IH]; destruct w as [|b w]; try reflexivity. cbn. now rewrite H, IH.
  - destruct v as [|x [|x' v]]; destruct w as [|y [|y' w]]; cbn [map on_ok]; try reflexivity; f_equal; rewrite ?H; cbn; f_equal; rewrite ?H; f_equal; rewrite !map_map; apply map_ext; intros; now rewrite H.
Qed.

Lemma vmean_scale s v : vmean (map (Rmult s) v) = s * vmean v.
Proof.
  unfold vmean. rewrite map_length. pose proof (Rsum_map_scal s (fun x : R => x) v) as E. rewrite map_id in E. change (fun x : R => s * x) with (Rmult s) in E. rewrite E. unfold Rdiv. ring.
Qed.
Lemma profile_mirror s f : zonal_profile (mirror_array s f) = on_ok (fun v => map (Rmult s) (rev v)) (zonal_profile f).
Proof.
  destruct f as [v|m|]; cbn [mirror_array zonal_profile on_ok]; try reflexivity. f_equal. unfold mirror, mscale, mmap. rewrite map_map, !map_rev, map_map. f_equal. apply map_ext. intros r. apply vmean_scale.
Qed.
Lemma profile_relabel p nr nc m : permutes nc p -> shaped nr nc m -> zonal_profile (relabel_array p (A2 m)) = zonal_profile (A2 m).
Proof.
  intros P [_ F]. cbn [relabel_array zonal_profile]. f_equal. unfold relabel. rewrite map_map. apply map_ext_in. intros r Hr. rewrite Forall_forall in F. specialize (F r Hr).
  unfold vmean. rewrite reorder_length. f_equal. apply Rsum_perm, reorder_perm. now rewrite F.
Qed.

Lemma nth_mirror s (v : vec) i : (i < length v)%nat -> nth i (map (Rmult s) (rev v)) 0 = s * nth (length v - 1 - i) v 0.
Proof. intros H. rewrite (nth_map_lt _ _ _ 0) by now rewrite rev_length. rewrite rev_nth by assumption. do 2 f_equal. lia. Qed.
Lemma mirror_tab s n (f h : nat -> R) : (forall i, (i < n)%nat -> h i = s * f (n - 1 - i)%nat) -> tab n h = map (Rmult s) (rev (tab n f)).
Proof.
  intros H. apply (list_eq_nth 0); [now rewrite map_length, rev_length, !tab_length|]. rewrite tab_length. intros i Hi.
  rewrite nth_mirror by now rewrite tab_length. rewrite tab_length, !tab_nth by lia. now apply H.
Qed.
(** the derivative of a reflected profile changes its sign *)
Lemma derivative_mirror g s v order : derivative_profile g (map (Rmult s) (rev v)) order = on_ok (fun d => map (Rmult (- s)) (rev d)) (derivative_profile g v order).
Proof.
  unfold derivative_profile, derivative_meridional. rewrite map_length, rev_length. set (n := length v).
  assert (M : forall i, (i < n)%nat -> nth i (map (Rmult s) (rev v)) 0 = s * nth (n - 1 - i) v 0) by (intros; now apply nth_mirror).
  destruct (match order with ONum x => Reqb x 2 | _ => false end).
  - unfold passert. destruct (Nat.leb 3 (g_nlat g)); cbn [bind on_ok]; [|reflexivity]. f_equal. apply mirror_tab. intros i Hi.
    unfold is_pole. destruct (Nat.eqb_spec i 0), (Nat.eqb_spec i (n - 1)), (Nat.eqb_spec (n - 1 - i) 0), (Nat.eqb_spec (n - 1 - i) (n - 1)); cbn [orb]; try lia; try (unfold Rdiv; ring).
    unfold stencil2. destruct (Nat.eqb_spec i 0), (Nat.eqb_spec i (n - 1)), (Nat.eqb_spec (n - 1 - i) 0), (Nat.eqb_spec (n - 1 - i) (n - 1)); try lia.
    rewrite !M by lia. replace (n - 1 - (i + 1))%nat with (n - 1 - i - 1)%nat by lia. replace (n - 1 - (i - 1))%nat with (n - 1 - i + 1)%nat by lia. unfold Rdiv. ring.
  - destruct (match order with ONone => true | ONum x => Reqb x 4 | OOther => false end); [|reflexivity].
    unfold passert. destruct (Nat.leb 5 (g_nlat g)); cbn [bind on_ok]; [|reflexivity]. destruct (Nat.ltb_spec n 5); [reflexivity|]. cbn [bind on_ok]. f_equal. apply mirror_tab. intros i Hi.
    unfold is_pole. destruct (Nat.eqb_spec i 0), (Nat.eqb_spec i (n - 1)), (Nat.eqb_spec (n - 1 - i) 0), (Nat.eqb_spec (n - 1 - i) (n - 1)); cbn [orb]; try lia; try (unfold Rdiv; ring).
    unfold stencil4. destruct (Nat.eqb_spec i 0), (Nat.eqb_spec i (n - 1)), (Nat.eqb_spec (n - 1 - i) 0), (Nat.eqb_spec (n - 1 - i) (n - 1)); try lia.
    destruct (Nat.eqb_spec i 1), (Nat.eqb_spec i (n - 2)), (Nat.eqb_spec (n - 1 - i) 1), (Nat.eqb_spec (n - 1 - i) (n - 2)); try lia.
    + rewrite !M by lia. replace (n - 1 - 0)%nat with (n - 1)%nat by lia. replace (n - 1 - 1)%nat with (n - 2)%nat by lia. replace (n - 1 - 2)%nat with (n - 3)%nat by lia.
      replace (n - 1 - 3)%nat with (n - 4)%nat by lia. replace (n - 1 - 4)%nat with (n - 5)%nat by lia. unfold Rdiv. ring.
    + rewrite !M by lia. replace (n - 1 - (n - 5))%nat with 4%nat by lia. replace (n - 1 - (n - 4))%nat with 3%nat by lia. replace (n - 1 - (n - 3))%nat with 2%nat by lia.
      replace (n - 1 - (n - 2))%nat with 1%nat by lia. replace (n - 1 - (n - 1))%nat with 0%nat by lia. unfold Rdiv. ring.
    + rewrite !M by lia. replace (n - 1 - (i - 2))%nat with (n - 1 - i + 2)%nat by lia. replace (n - 1 - (i - 1))%nat with (n - 1 - i + 1)%nat by lia.
      replace (n - 1 - (i + 1))%nat with (n - 1 - i - 1)%nat by lia. replace (n - 1 - (i + 2))%nat with (n - 1 - i - 2)%nat by lia. unfold Rdiv. ring.
Qed.

Lemma np_cosd_opp y : np_cosd (- y) = np_cosd y.
Proof. unfold np_cosd. replace (deg2rad (- y)) with (- deg2rad y) by (unfold deg2rad; field). now rewrite cos_neg. Qed.
Lemma map_id_1 (v : vec) : map (Rmult 1) v = v.
Proof. rewrite <- (map_id v) at 2. apply map_ext. intros; ring. Qed.
Lemma on_ok_bind {A B C} (f : A -> B) (h : B -> res C) r : bind (on_ok f r) h = bind r (fun a => h (f a)).
Proof. now destruct r. Qed.

Section Grid.
Variables (res rs om : R) (nt : option Z) (g : grid).
Hypothesis Hg : mk_grid res rs om nt = Ok g.
Notation n := (g_nlat g).

Lemma even_lat (f : R -> R) : (forall y, f (- y) = f y) -> rev (map f (g_lat g)) = map f (g_lat g).
Proof.
  intros E. rewrite <- (lat_opposite _ _ _ _ _ Hg) at 2. unfold opposite. rewrite map_rev, map_map. f_equal. apply map_ext. intros. now rewrite E.
Qed.
Lemma odd_lat (f : R -> R) : (forall y, f (- y) = - f y) -> map (Rmult (-1)) (rev (map f (g_lat g))) = map f (g_lat g).
Proof.
  intros E. rewrite <- (lat_opposite _ _ _ _ _ Hg) at 2. unfold opposite. rewrite <- !map_rev, !map_map, !map_rev. f_equal. apply map_ext. intros. rewrite E. ring.
Qed.
Lemma fcor_odd : map (Rmult (-1)) (rev (g_fcor g)) = g_fcor g.
Proof.
  unfold g_fcor. apply odd_lat. intros y. unfold coriolis. replace (deg2rad (- y)) with (- deg2rad y) by (unfold deg2rad; field). rewrite sin_neg. ring.
Qed.
Notation mir s := (fun v : vec => map (Rmult s) (rev v)).

Lemma ks_pv_mirror u pv order : ks_pv g (mir 1 u) (option_map (mirror_array (-1)) pv) order = on_ok (mir (-1)) (ks_pv g u pv order).
Proof.
  destruct pv as [q|]; cbn [option_map ks_pv]; [apply profile_mirror|].
  set (c := map np_cosd (g_lat g)). assert (EC : rev c = c) by (apply even_lat, np_cosd_opp).
  assert (C1 : map (Rmult 1) (rev c) = c) by now rewrite map_id_1.
  rewrite <- C1 at 1. rewrite (bcast2_scale Rmult 1 1 1) by (intros; ring). rewrite bcast2_rev.
  destruct (bcast2 Rmult u c) as [uc|e]; cbn [on_ok bind]; [|reflexivity].
  rewrite derivative_mirror. destruct (derivative_profile g uc order) as [d|e]; cbn [on_ok bind]; [|reflexivity].
  replace (map (fun x => - x / g_rsphere g) (map (Rmult (- (1))) (rev d))) with (map (Rmult (-1)) (rev (map (fun x => - x / g_rsphere g) d))).
  2:{ rewrite <- map_rev, !map_map. apply map_ext. intros; unfold Rdiv; ring. }
  rewrite <- C1 at 1. rewrite (bcast2_scale Rdiv (-1) 1 (-1)).
  2:{ intros x y. unfold Rdiv. rewrite Rmult_1_l. ring. }
  rewrite bcast2_rev. destruct (bcast2 Rdiv (map (fun x => - x / g_rsphere g) d) c) as [rv|e]; cbn [on_ok bind]; [|reflexivity].
  rewrite <- fcor_odd at 1. rewrite (bcast2_scale Rplus (-1) (-1) (-1)) by (intros; ring). rewrite bcast2_rev. now destruct (bcast2 Rplus (g_fcor g) rv).
Qed.
Lemma ks_squared_mirror u pv order min_u :
  ks_squared g (mirror_array 1 u) (option_map (mirror_array (-1)) pv) order min_u = on_ok (@rev ext) (ks_squared g u pv order min_u).
Proof.
  unfold ks_squared. rewrite profile_mirror. destruct (zonal_profile u) as [u1|]; cbn [on_ok bind]; [|reflexivity].
  rewrite ks_pv_mirror. destruct (ks_pv g u1 pv order) as [q|]; cbn [on_ok bind]; [|reflexivity].
  rewrite derivative_mirror. destruct (derivative_profile g q order) as [dq|]; cbn [on_ok bind]; [|reflexivity].
  set (c := map (fun y => np_cosd y ^ 2 * g_rsphere g) (g_lat g)). assert (EC : rev c = c) by (apply even_lat; intros; now rewrite np_cosd_opp).
  assert (C1 : map (Rmult 1) (rev c) = c) by now rewrite map_id_1. rewrite <- C1 at 1. rewrite (bcast2_scale Rmult 1 (- -1) 1) by (intros; ring). rewrite bcast2_rev.
  destruct (bcast2 Rmult c dq) as [a|]; cbn [on_ok bind]; [|reflexivity]. rewrite !map_id_1, !rev_length. destruct (Nat.eqb_spec (length u1) (length a)); [|reflexivity].
  cbn [on_ok]. now rewrite map2_rev.
Qed.
Lemma ks_mirror u pv order min_u kind :
  stationary_wavenumber g (mirror_array 1 u) (option_map (mirror_array (-1)) pv) order min_u kind = on_ok rev_result (stationary_wavenumber g u pv order min_u kind).
Proof.
  unfold stationary_wavenumber. rewrite ks_squared_mirror. destruct (ks_squared g u pv order min_u) as [l|]; cbn [on_ok bind]; [|reflexivity].
  destruct (String.eqb kind "squared"); [reflexivity|]. rewrite map_rev. destruct (String.eqb kind "complex"); [reflexivity|]. destruct (String.eqb kind "real"); [|reflexivity]. cbn [on_ok rev_result]. now rewrite map_rev.
Qed.

(** ** Waveguides *)
Fixpoint pairs2 {A} (l : list A) : list (A * A) := match l with a :: b :: l => (a, b) :: pairs2 l | _ => [] end.
Lemma pairs2_app {A} : forall m (l l' : list A), length l = (2 * m)%nat -> pairs2 (l ++ l') = pairs2 l ++ pairs2 l'.
Proof.
  induction m as [|m IH]; intros l l' L. { destruct l; [reflexivity|discriminate]. }
  destruct l as [|a [|b l]]; cbn in L; try lia. cbn. f_equal. apply IH. lia.
Qed.
Lemma pairs2_mirror : forall m (l : list ext), length l = (2 * m)%nat -> pairs2 (rev (map eopp l)) = mirror_waveguides (pairs2 l).
Proof.
  induction m as [|m IH]; intros l L. { destruct l; [reflexivity|discriminate]. }
  destruct l as [|a [|b l]]; cbn in L; try lia. unfold mirror_waveguides in *. cbn [map rev pairs2]. rewrite <- app_assoc. cbn [app].
  rewrite (pairs2_app m) by (rewrite rev_length, map_length; lia). rewrite IH by lia. reflexivity.
Qed.

Section Profile.
Variable k : R.
Notation lat i := (nth i (g_lat g) 0).
Definition side (a : ext) : bool := eltb (Fin k) a.
Definition cross (kk : nat -> ext) (i : nat) : list ext :=
  if side (kk i) then (if side (kk (S i)) then [] else [wg_end g (Fin k) (lat i) (kk i) (kk (S i))])
  else if side (kk (S i)) then [wg_start g (Fin k) (lat i) (kk i) (kk (S i))] else [].
Definition ends (kk : nat -> ext) (i m : nat) : list ext :=
  flat_map (cross kk) (seq i m) ++ (if side (kk (i + m)%nat) then [Fin (last (g_lat g) 0)] else []).
Lemma not_side a : a <> NaN -> a <> Fin k -> eltb a (Fin k) = negb (side a).
Proof.
  unfold side. intros A B. destruct a as [x| | |]; try reflexivity; [|contradiction]. cbn. destruct (Rltb x k) eqn:E1, (Rltb k x) eqn:E2; rewrite ?Rltb_true, ?Rltb_false in *; try reflexivity; [lra|]. contradiction B. f_equal. lra.
Qed.
Lemma loop_pairs (kk : nat -> ext) : forall m i st, (forall j, (i <= j <= i + m)%nat -> kk j <> NaN /\ kk j <> Fin k) ->
  wg_loop g (Fin k) (map (fun i => (lat i, kk i, kk (S i))) (seq i m)) (side (kk i)) st = pairs2 ((if side (kk i) then [st] else []) ++ ends kk i m).
Proof.
  induction m as [|m IH]; intros i st H.
  - unfold ends. cbn [seq map wg_loop flat_map app]. rewrite Nat.add_0_r. now destruct (side (kk i)).
  - cbn [seq map wg_loop]. destruct (H (S i)) as [H1 H2]; [lia|]. rewrite (not_side _ H1 H2). fold (side (kk (S i))).
    assert (HE : ends kk i (S m) = cross kk i ++ ends kk (S i) m). { unfold ends. cbn [seq flat_map]. rewrite <- app_assoc. now rewrite Nat.add_succ_comm. }
    rewrite HE. unfold cross. destruct (side (kk i)) eqn:E1, (side (kk (S i))) eqn:E2; cbn [andb negb app].
    + specialize (IH (S i) st). rewrite E2 in IH. apply IH. intros j Hj. apply H. lia.
    + specialize (IH (S i) st). rewrite E2 in IH. cbn [pairs2]. f_equal. apply IH. intros j Hj. apply H. lia.
    + specialize (IH (S i) (wg_start g (Fin k) (lat i) (kk i) (kk (S i)))). rewrite E2 in IH. apply IH. intros j Hj. apply H. lia.
    + specialize (IH (S i) st). rewrite E2 in IH. apply IH. intros j Hj. apply H. lia.
Qed.
(** boundaries come in pairs *)
Lemma ends_even (kk : nat -> ext) st : forall m i, exists h, length ((if side (kk i) then [st] else []) ++ ends kk i m) = (2 * h)%nat.
Proof.
  induction m as [|m IH]; intros i.
  - unfold ends. cbn [seq flat_map app]. rewrite Nat.add_0_r. destruct (side (kk i)); [exists 1%nat|exists 0%nat]; reflexivity.
  - assert (HE : ends kk i (S m) = cross kk i ++ ends kk (S i) m). { unfold ends. cbn [seq flat_map]. rewrite <- app_assoc. now rewrite Nat.add_succ_comm. }
    rewrite HE. destruct (IH (S i)) as [h Hh]. unfold cross. destruct (side (kk i)), (side (kk (S i))); rewrite ?app_length in *; cbn [length app] in *; [exists h|exists (S h)|exists h|exists h]; lia.
Qed.
End Profile.

Hypothesis HI : is_integer (180 / res).
Lemma lat_next i : (S i < n)%nat -> nth (S i) (g_lat g) 0 = nth i (g_lat g) 0 + g_dlat g.
Proof. intros Hi. pose proof (proj2 (proj1 (proj2 (nominal_spacing _ _ _ _ _ Hg))) HI i Hi). lra. Qed.

Lemma flat_map_mirror (f h : nat -> list ext) : forall m, (forall i, rev (f i) = f i) -> (forall i, (i < m)%nat -> h (m - 1 - i)%nat = map eopp (f i)) ->
  flat_map h (seq 0 m) = rev (map eopp (flat_map f (seq 0 m))).
Proof.
  intros m RF. revert h. induction m as [|m IH]; intros h H; [reflexivity|].
  cbn [seq flat_map]. rewrite <- seq_shift, flat_map_concat_map, map_map, <- flat_map_concat_map. rewrite (IH (fun x => h (S x))).
  2:{ intros i Hi. replace (S (m - 1 - i)) with (S m - 1 - i)%nat by lia. apply H. lia. }
  replace (h 0%nat) with (map eopp (f m)) by (rewrite <- (H m) by lia; f_equal; lia).
  change (f 0%nat ++ flat_map f (map S (seq 0 m))) with (flat_map f (seq 0 1 ++ map S (seq 0 m))). rewrite seq_shift. change (seq 0 1 ++ seq 1 m) with (seq 0 (S m)).
  rewrite seq_S, flat_map_app. cbn [flat_map plus]. rewrite app_nil_r, map_app, rev_app_distr. f_equal. now rewrite <- map_rev, RF.
Qed.
Lemma cross_rev k kk i : rev (cross k kk i) = cross k kk i.
Proof. unfold cross. destruct (side k (kk i)), (side k (kk (S i))); reflexivity. Qed.

Lemma cross_point y a b k : a <> b -> esub (Fin (- (y + g_dlat g))) (ediv (emul (Fin (g_dlat g)) (esub (Fin b) (Fin k))) (esub (Fin a) (Fin b)))
  = eopp (esub (Fin y) (ediv (emul (Fin (g_dlat g)) (esub (Fin a) (Fin k))) (esub (Fin b) (Fin a)))).
Proof.
  intros N. unfold esub. cbn [eopp eadd emul]. unfold ediv. rewrite !(proj2 (Reqb_false _ _)) by lra. cbn [eopp eadd]. f_equal. field. split; lra.
Qed.
Lemma cross_mirror k kk kk' i : (S i < n)%nat -> (forall j, (j < n)%nat -> kk' j = kk (n - 1 - j)%nat) ->
  kk i <> NaN -> kk (S i) <> NaN -> kk i <> Fin k -> kk (S i) <> Fin k ->
  ~ (kk i = NInf /\ exists x, kk (S i) = Fin x /\ k < x) -> ~ (kk (S i) = NInf /\ exists x, kk i = Fin x /\ k < x) ->
  cross k kk' (n - 2 - i) = map eopp (cross k kk i).
Proof.
  intros Hi E N1 N2 K1 K2 J1 J2. unfold cross. rewrite !E by lia. replace (n - 1 - (n - 2 - i))%nat with (S i) by lia. replace (n - 1 - S (n - 2 - i))%nat with i by lia.
  assert (LY : nth (n - 2 - i) (g_lat g) 0 = - (nth i (g_lat g) 0 + g_dlat g)).
  { rewrite <- (lat_next i Hi). rewrite <- (lat_opp _ _ _ _ _ Hg (S i) Hi). f_equal. lia. }
  rewrite LY. set (y := nth i (g_lat g) 0) in *.
  destruct (kk i) as [a| | |], (kk (S i)) as [b| | |]; try contradiction; unfold side; cbn [eltb]; unfold wg_end, wg_start, wg_cross; cbn [is_inf].
  - destruct (Rltb k a) eqn:Ea, (Rltb k b) eqn:Eb; rewrite ?Rltb_true, ?Rltb_false in *; cbn [map]; try reflexivity; rewrite cross_point by lra; reflexivity.
  - destruct (Rltb k a); cbn [map]; [reflexivity|]. cbn [eopp]. do 2 f_equal. ring.
  - destruct (Rltb k a) eqn:Ea; [|reflexivity]. rewrite Rltb_true in Ea. exfalso. apply J2. eauto.
  - destruct (Rltb k b); cbn [map]; [reflexivity|]. cbn [eopp]. do 2 f_equal. 
  - reflexivity.
  - cbn [map eopp]. do 2 f_equal.
  - destruct (Rltb k b) eqn:Eb; [|reflexivity]. rewrite Rltb_true in Eb. exfalso. apply J1. eauto.
  - cbn [map eopp]. do 2 f_equal. ring.
  - reflexivity.
Qed.

Lemma side_first k a : a <> Fin k -> eleb (Fin k) a = side k a.
Proof.
  unfold side. destruct a as [x| | |]; try reflexivity. intros H. cbn. destruct (Rleb k x) eqn:E1, (Rltb k x) eqn:E2; rewrite ?Rleb_true, ?Rleb_false, ?Rltb_true, ?Rltb_false in *; try reflexivity; [|lra]. contradiction H. f_equal. lra.
Qed.
(** the boundaries of all waveguides from north to south *)
Definition bounds (k : R) (kk : nat -> ext) : list ext := (if side k (kk 0%nat) then [Fin (nth 0 (g_lat g) 0)] else []) ++ ends k kk 0 (n - 1).
Lemma extract_bounds k ks z kc : length ks = n -> not_nan ks -> never_equal k ks -> Forall2 stands_for z ks -> stands_for kc (Fin k) ->
  extract_ks_waveguides g z kc = Ok (pairs2 (bounds k (fun i => nth i ks NaN))).
Proof.
  intros L NN NE Hz Hk. pose proof (gf_nlat3 _ _ _ _ (mk_grid_facts _ _ _ _ _ Hg)) as N3. pose proof NN as HN.
  unfold not_nan, never_equal in *. rewrite Forall_forall in NN, NE.
  assert (P : forall j, (j < n)%nat -> nth j ks NaN <> NaN /\ nth j ks NaN <> Fin k). { intros j Hj. split; [apply NN|apply NE]; apply nth_In; lia. }
  rewrite (extract_form _ _ _ _ _ Hg ks k L HN z kc Hz Hk). f_equal. rewrite side_first by (apply P; lia). unfold bounds.
  apply (loop_pairs k (fun i => nth i ks NaN)). intros j Hj. apply P. lia.
Qed.
Lemma bounds_mirror k ks : length ks = n -> not_nan ks -> never_equal k ks -> ~ jumps k ks -> ~ jumps k (rev ks) ->
  bounds k (fun i => nth i (rev ks) NaN) = rev (map eopp (bounds k (fun i => nth i ks NaN))).
Proof.
  intros L NN NE J1 J2. pose proof (gf_nlat3 _ _ _ _ (mk_grid_facts _ _ _ _ _ Hg)) as N3.
  unfold not_nan, never_equal in *. rewrite Forall_forall in NN, NE.
  assert (P : forall j, (j < n)%nat -> nth j ks NaN <> NaN /\ nth j ks NaN <> Fin k). { intros j Hj. split; [apply NN|apply NE]; apply nth_In; lia. }
  assert (RV : forall j, (j < n)%nat -> nth j (rev ks) NaN = nth (n - 1 - j) ks NaN). { intros j Hj. rewrite rev_nth by lia. f_equal. lia. }
  assert (L0 : last (g_lat g) 0 = - nth 0 (g_lat g) 0).
  { rewrite <- (lat_opp _ _ _ _ _ Hg 0%nat) by lia. rewrite last_nth', lat_length. f_equal. lia. }
  unfold bounds, ends. rewrite (flat_map_mirror (cross k (fun i => nth i ks NaN)) (cross k (fun i => nth i (rev ks) NaN)) (n - 1)).
  - cbn [plus]. rewrite !RV by lia. rewrite Nat.sub_0_r, Nat.sub_diag, L0, !map_app, !rev_app_distr, <- !app_assoc. f_equal; [|f_equal].
    + destruct (side k (nth (n - 1) ks NaN)); [|reflexivity]. cbn. do 2 f_equal. ring.
    + destruct (side k (nth 0 ks NaN)); reflexivity.
  - intros i. apply cross_rev.
  - intros i Hi. replace (n - 1 - 1 - i)%nat with (n - 2 - i)%nat by lia. apply cross_mirror; try (apply P; lia); [lia|exact RV| |].
    + intros [E [x [E' H]]]. apply J1. exists i, x. repeat split; auto. lia.
    + intros [E [x [E' H]]]. apply J2. exists (n - 2 - i)%nat, x. rewrite rev_length, !RV by lia. replace (n - 1 - (n - 2 - i))%nat with (S i) by lia. replace (n - 1 - S (n - 2 - i))%nat with i by lia. repeat split; auto. lia.
Qed.
Lemma waveguides_mirror k ks z kc : length ks = n -> not_nan ks -> never_equal k ks -> ~ jumps k ks -> ~ jumps k (rev ks) ->
  Forall2 stands_for z ks -> stands_for kc (Fin k) ->
  extract_ks_waveguides g (rev z) kc = on_ok mirror_waveguides (extract_ks_waveguides g z kc).
Proof.
  intros L NN NE J1 J2 Hz Hk. rewrite (extract_bounds k ks z) by assumption. rewrite (extract_bounds k (rev ks) (rev z)).
  - cbn [on_ok]. f_equal. rewrite bounds_mirror by assumption. destruct (ends_even k (fun i => nth i ks NaN) (Fin (nth 0 (g_lat g) 0)) (n - 1) 0) as [h Hh].
    apply (pairs2_mirror h). exact Hh.
  - now rewrite rev_length.
  - now apply Forall_rev.
  - now apply Forall_rev.
  - clear - Hz. induction Hz; [constructor|]. cbn. apply Forall2_app; auto.
  - assumption.
Qed.
End Grid.
