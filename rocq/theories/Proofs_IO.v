(** Proofs about the Dataset conversions: lookup, squeezing and coordinates. *)
From Coq Require Export String.
From Verif Require Import Spec_IO Proofs_Base Proofs_Grid Proofs_StateList.
From Coq Require Import List Lia Lra.
Import ListNotations.
Local Open Scope string_scope.
Local Open Scope list_scope.

Lemma assoc_In {A} (l : list (string * A)) k a : assoc l k = Some a -> In (k, a) l.
Proof.
  induction l as [|[k' b] l IH]; cbn; [easy|]. destruct (String.eqb_spec k k') as [->|]; [|auto].
  intros [= ->]. auto.
Qed.
Lemma assoc_None {A} (l : list (string * A)) k : assoc l k = None <-> ~ In k (map fst l).
Proof.
  induction l as [|[k' b] l IH]; cbn; [tauto|]. destruct (String.eqb_spec k k') as [->|N].
  - split; [easy|]. intros H; exfalso; auto.
  - rewrite IH. intuition congruence.
Qed.
Lemma In_assoc {A} (l : list (string * A)) k a : NoDup (map fst l) -> In (k, a) l -> assoc l k = Some a.
Proof.
  induction l as [|[k' b] l IH]; cbn; [easy|]. intros N [E|I]; inversion N as [|x y N1 N2]; subst.
  - inversion E; subst. now rewrite String.eqb_refl.
  - destruct (String.eqb_spec k k') as [->|]; [|auto].
    exfalso. apply N1. apply (in_map fst) in I. exact I.
Qed.
Lemma assoc_map {A B} (f : A -> B) (l : list (string * A)) k :
  assoc (map (fun nv => (fst nv, f (snd nv))) l) k = option_map f (assoc l k).
Proof. induction l as [|[k' b] l IH]; cbn; [easy|]. now destruct (String.eqb k k'). Qed.
Lemma mem_In k l : mem k l = true <-> In k l.
Proof.
  unfold mem. rewrite existsb_exists. split.
  - intros (x & I & E). apply String.eqb_eq in E. now subst.
  - intros I. exists k. split; [auto|apply String.eqb_refl].
Qed.

(** *** names *)
Lemma has_squeeze ds n : ds_has (squeeze ds) n = true <-> In n (map fst (ds_vars ds)).
Proof.
  unfold ds_has, squeeze; cbn [ds_vars]. rewrite assoc_map. destruct (assoc (ds_vars ds) n) eqn:E; cbn.
  - apply assoc_In in E. apply (in_map fst) in E. tauto.
  - apply assoc_None in E. split; [easy|tauto].
Qed.
Lemma VAR_documented ref : VAR_NAMES ref = documented ref.
Proof.
  unfold VAR_NAMES, documented. cbn [assoc].
  repeat match goal with |- context [String.eqb ref ?s] => destruct (String.eqb ref s); [reflexivity|] end.
  reflexivity.
Qed.
Lemma select_Some ds l n : select_var (squeeze ds) l = Some n <->
  exists before after, l = before ++ n :: after /\ In n (map fst (ds_vars ds))
    /\ forall m, In m before -> ~ In m (map fst (ds_vars ds)).
Proof.
  induction l as [|a l IH]; cbn [select_var].
  - split; [easy|]. intros (b & c & E & _). now destruct b.
  - destruct (ds_has (squeeze ds) a) eqn:E.
    + apply has_squeeze in E. split.
      * intros [= ->]. exists nil, l. split; [easy|]. split; [auto|]. intros m [].
      * intros (b & c & E1 & I & H). destruct b as [|x b]; cbn in E1; inversion E1; subst; [easy|].
        exfalso. apply (H x); [now left|exact E].
    + assert (E' : ~ In a (map fst (ds_vars ds))) by (rewrite <- has_squeeze, E; easy).
      rewrite IH. split; intros (b & c & E1 & I & H).
      * exists (a :: b), c. subst l. repeat split; auto. intros m [<-|J]; auto.
      * destruct b as [|x b]; cbn in E1; inversion E1; subst; [easy|].
        exists b, c. repeat split; auto. intros m J. apply H. now right.
Qed.
Lemma select_None ds l : select_var (squeeze ds) l = None <-> forall m, In m l -> ~ In m (map fst (ds_vars ds)).
Proof.
  induction l as [|a l IH]; cbn [select_var].
  - split; [intros _ m []|easy].
  - destruct (ds_has (squeeze ds) a) eqn:E.
    + apply has_squeeze in E. split; [easy|]. intros H. exfalso. apply (H a); [now left|exact E].
    + assert (E' : ~ In a (map fst (ds_vars ds))) by (rewrite <- has_squeeze, E; easy).
      rewrite IH. split; intros H m.
      * intros [<-|J]; auto.
      * intros J. apply H. now right.
Qed.
Lemma var_map_picks ds names ref o : NoDup (map fst names) ->
  (var_map (squeeze ds) names ref = o <-> picks ds names ref o).
Proof.
  intros N. unfold var_map. rewrite VAR_documented. destruct (assoc names ref) as [o'|] eqn:E.
  - pose proof (assoc_In _ _ _ E) as I. split.
    + intros <-. now constructor.
    + intros [o2 I2|b n a H|H]; [|exfalso; apply H; apply (in_map fst) in I; exact I..].
      apply (In_assoc _ _ _ N) in I2. congruence.
  - apply assoc_None in E. split.
    + destruct o as [n|].
      * intros H. apply select_Some in H as (b & c & H1 & H2 & H3). now apply (picks_found _ _ _ b n c).
      * intros H. apply picks_nothing; [exact E|]. now apply select_None.
    + intros [o2 I2|b n a H H1 H2 H3|H H1].
      * exfalso. apply E. apply (in_map fst) in I2. exact I2.
      * apply select_Some. now exists b, a.
      * now apply select_None.
Qed.
Lemma picks_fun ds names ref o o' : NoDup (map fst names) -> picks ds names ref o -> picks ds names ref o' -> o = o'.
Proof. intros N H1 H2. apply (var_map_picks _ _ _ _ N) in H1, H2. congruence. Qed.

(** *** squeezing *)
Definition flat_on (ds : dataset) (pos : string -> nat) : Prop := forall d, ds_size ds d = 1%nat -> pos d = 0%nat.
Lemma unsqueeze_map ds pos dims : flat_on ds pos ->
  unsqueeze (ds_size ds) dims (map pos (filter (fun d => negb (Nat.eqb (ds_size ds d) 1)) dims)) = map pos dims.
Proof.
  intros F. induction dims as [|d dims IH]; cbn; [easy|].
  destruct (Nat.eqb_spec (ds_size ds d) 1) as [E|E]; cbn.
  - rewrite IH, (F d E). reflexivity.
  - now rewrite IH.
Qed.
(** the squeezed variable shows the same values *)
Definition sq (ds : dataset) (v v' : xvar) : Prop :=
  x_coord v' = x_coord v /\ x_dims v' = long_dims ds v
  /\ forall pos, flat_on ds pos -> x_at v' (map pos (x_dims v')) = at_pos v pos.
Lemma sq_squeeze ds v : sq ds v (squeeze_var (ds_size ds) v).
Proof.
  split; [|split]; [reflexivity..|]. intros pos F. cbn [squeeze_var x_at x_dims]. now rewrite unsqueeze_map.
Qed.
Lemma is_dim_squeeze ds n : is_dim (squeeze ds) n = true <-> is_dimension ds n /\ ds_size ds n <> 1%nat.
Proof.
  unfold is_dim, squeeze; cbn [ds_vars]. rewrite existsb_exists. split.
  - intros ([m v] & I & E). apply in_map_iff in I as ([m' w] & E1 & I). cbn in *.
    apply (proj1 (mem_In _ _)) in E. inversion E1; subst; clear E1. cbn in E. apply filter_In in E as [E1 E2].
    split; [now exists m, w|]. intros H. rewrite H in E2. easy.
  - intros [(m & v & I & J) H]. exists (m, squeeze_var (ds_size ds) v). split.
    + apply in_map_iff. now exists (m, v).
    + apply mem_In. cbn. apply filter_In. split; [auto|]. apply negb_true_iff. now apply Nat.eqb_neq.
Qed.
Lemma assoc_squeeze ds n : assoc (ds_vars (squeeze ds)) n = option_map (squeeze_var (ds_size ds)) (assoc (ds_vars ds) n).
Proof. unfold squeeze; cbn [ds_vars]. apply assoc_map. Qed.
Lemma get_named ds n v' : ds_get (squeeze ds) n = Ok v' -> exists v, named ds n v /\ sq ds v v'.
Proof.
  unfold ds_get. rewrite assoc_squeeze. destruct (assoc (ds_vars ds) n) as [v|] eqn:E; cbn [option_map].
  - intros [= <-]. exists v. split; [constructor; now apply assoc_In|apply sq_squeeze].
  - destruct (is_dim (squeeze ds) n) eqn:D; [|easy]. intros [= <-].
    apply is_dim_squeeze in D as [D1 D2]. apply assoc_None in E.
    exists (arange_var n). split; [now apply named_dim|].
    assert (L : long_dims ds (arange_var n) = [n]).
    { unfold long_dims; cbn. destruct (Nat.eqb_spec (ds_size ds n) 1); easy. }
    split; [|split]; [reflexivity|now rewrite L|]. intros pos F. reflexivity.
Qed.
Lemma named_fun ds n v w : valid_ds ds -> named ds n v -> named ds n w -> v = w.
Proof.
  intros [N _] H1 H2. destruct H1 as [v I|A B D]; destruct H2 as [w J|A' B' D'].
  - apply (In_assoc _ _ _ N) in I, J. congruence.
  - exfalso. apply A'. apply (in_map fst) in I. exact I.
  - exfalso. apply A. apply (in_map fst) in J. exact J.
  - reflexivity.
Qed.
Lemma named_get ds n v : valid_ds ds -> named ds n v -> exists v', ds_get (squeeze ds) n = Ok v' /\ sq ds v v'.
Proof.
  intros V H. assert (exists v', ds_get (squeeze ds) n = Ok v') as [v' E].
  { unfold ds_get. rewrite assoc_squeeze. destruct H as [v I|A B D].
    - rewrite (In_assoc _ _ _ (proj1 V) I). cbn. eauto.
    - apply assoc_None in A. rewrite A. cbn [option_map].
      assert (E : is_dim (squeeze ds) n = true) by now apply is_dim_squeeze. rewrite E. eauto. }
  exists v'. split; [exact E|]. destruct (get_named _ _ _ E) as (w & W & Q).
  now rewrite (named_fun _ _ _ _ V H W).
Qed.
Lemma get_err ds n e : ds_get (squeeze ds) n = Err e -> e = KeyError /\ forall v, ~ named ds n v.
Proof.
  unfold ds_get. rewrite assoc_squeeze. destruct (assoc (ds_vars ds) n) as [v|] eqn:E; [easy|]. cbn [option_map].
  destruct (is_dim (squeeze ds) n) eqn:D; [easy|]. intros [= <-]. split; [easy|].
  intros v [w I|A B C].
  - apply assoc_None in E. apply E. apply (in_map fst) in I. exact I.
  - assert (is_dim (squeeze ds) n = true) by now apply is_dim_squeeze. congruence.
Qed.

(** *** coordinates *)
Lemma vdiff_length l : length (vdiff l) = (length l - 1)%nat.
Proof. unfold vdiff. now rewrite map_length, pairs_length. Qed.
Lemma vdiff_nth l i : (S i < length l)%nat -> nth i (vdiff l) 0 = nth (S i) l 0 - nth i l 0.
Proof.
  intros H. unfold vdiff. rewrite (nth_map_lt _ _ _ (0, 0)) by (rewrite pairs_length; lia).
  now rewrite (pairs_nth _ _ 0 H).
Qed.
Lemma isclose_near a b : isclose a b = true <-> near a b.
Proof. unfold isclose, isclose_tol, near. apply Rleb_true. Qed.
Lemma spaced_bool x d : spaced x d <->
  exists r, vdiff x = d :: r /\ forallb (fun e => isclose d e) (vdiff x) = true.
Proof.
  split.
  - intros (L & E & H). destruct (vdiff x) as [|d' r] eqn:V.
    + exfalso. pose proof (vdiff_length x) as L2. rewrite V in L2. cbn in L2. lia.
    + assert (d' = d). { rewrite <- E. rewrite <- (vdiff_nth x 0) by lia. now rewrite V. } subst d'.
      exists r. split; [easy|]. apply forallb_forall. intros e I. rewrite <- V in I.
      apply (In_nth _ _ 0) in I as (k & K & <-). rewrite vdiff_length in K.
      rewrite vdiff_nth by lia. apply isclose_near. apply H. lia.
  - intros (r & V & F). assert (L : (2 <= length x)%nat).
    { pose proof (vdiff_length x) as L2. rewrite V in L2. cbn in L2. lia. }
    split; [exact L|]. split.
    + rewrite <- (vdiff_nth x 0) by lia. now rewrite V.
    + intros k K. apply isclose_near. rewrite <- (vdiff_nth x k K).
      rewrite forallb_forall in F. apply F. apply nth_In. rewrite vdiff_length. lia.
Qed.
Lemma last_nth (x : vec) : last x 0 = nth (length x - 1) x 0.
Proof.
  induction x as [|a [|b x] IH]; [easy..|]. change (last (a :: b :: x) 0) with (last (b :: x) 0).
  rewrite IH. cbn [length]. replace (S (S (length x)) - 1)%nat with (S (S (length x) - 1)) by lia. reflexivity.
Qed.
Lemma hd_nth (x : vec) : hd 0 x = nth 0 x 0.
Proof. now destruct x. Qed.

Definition lon_checks (n : string) (lon : vec) : res (string * vec * R) :=
  passert (Nat.ltb 0 (length lon))
      match vdiff lon with
      | [] => Err IndexError
      | dlon :: _ =>
          passert (forallb (fun d => isclose dlon d) (vdiff lon)) (
          passert (Rltb 0 dlon) (
          passert (isclose (last lon 0 - hd 0 lon) (360 - dlon))
            (Ok (n, lon, dlon))))
      end.
Definition lat_checks (n : string) (lat : vec) (nlon : nat) (dlon : R) : res (string * vec) :=
  passert (Nat.ltb 0 (length lat)) (
  passert (Nat.eqb (length lat - 1) (Nat.div nlon 2)) (
      match vdiff lat with
      | [] => Err IndexError
      | dlat :: _ =>
          passert (forallb (fun d => isclose dlat d) (vdiff lat)) (
          passert (Rltb dlat 0) (
          passert (isclose dlat (- dlon)) (Ok (n, lat))))
      end)).
Lemma lon_checks_ok n lon m lon' d : lon_checks n lon = Ok (m, lon', d) <-> m = n /\ lon' = lon /\ regular_lon lon d.
Proof.
  unfold lon_checks, passert, regular_lon. rewrite spaced_bool, <- isclose_near, <- last_nth, <- hd_nth, <- Rltb_true.
  destruct (Nat.ltb_spec 0 (length lon)) as [L|L].
  - destruct (vdiff lon) as [|e r] eqn:V.
    + split; [easy|]. intros (_ & _ & (r & E & _) & _). easy.
    + split.
      * destruct (forallb _ (e :: r)) eqn:F; [|easy]. destruct (Rltb 0 e) eqn:P; [|easy].
        destruct (isclose _ _) eqn:C; [|easy]. intros E; inversion E; subst.
        repeat split; auto. now exists r.
      * intros (-> & -> & (r' & E & F) & P & C). inversion E; subst. now rewrite F, P, C.
  - split; [easy|]. intros (_ & _ & (r & E & _) & _). pose proof (vdiff_length lon) as K. rewrite E in K. cbn in K. lia.
Qed.
Lemma lon_checks_err n lon e : length lon <> 1%nat -> lon_checks n lon = Err e ->
  e = AssertionError /\ forall d, ~ regular_lon lon d.
Proof.
  intros L1 H. split.
  - revert H. unfold lon_checks, passert. destruct (Nat.ltb_spec 0 (length lon)) as [L|L]; [|congruence].
    destruct (vdiff lon) as [|d r] eqn:V.
    + exfalso. pose proof (vdiff_length lon) as K. rewrite V in K. cbn in K. lia.
    + destruct (forallb _ _); [|congruence]. destruct (Rltb _ _); [|congruence]. destruct (isclose _ _); congruence.
  - intros d R. assert (E : lon_checks n lon = Ok (n, lon, d)) by now apply lon_checks_ok. congruence.
Qed.
Lemma lat_checks_ok n lat m lat' nlon d : lat_checks n lat nlon d = Ok (m, lat') <-> m = n /\ lat' = lat /\ regular_lat lat nlon d.
Proof.
  unfold lat_checks, passert, regular_lat.
  destruct (Nat.ltb_spec 0 (length lat)) as [L|L].
  - destruct (Nat.eqb_spec (length lat - 1) (nlon / 2)) as [Q|Q].
    + destruct (vdiff lat) as [|e r] eqn:V.
      * split; [easy|]. intros (_ & _ & _ & y & Y & _). apply spaced_bool in Y as (r & E & _). congruence.
      * split.
        -- destruct (forallb _ (e :: r)) eqn:F; [|easy]. destruct (Rltb e 0) eqn:P; [|easy].
           destruct (isclose _ _) eqn:C; [|easy]. intros E; inversion E; subst.
           repeat split; auto. exists e. split; [apply spaced_bool; exists r; now rewrite V|].
           split; [now apply Rltb_true|now apply isclose_near].
        -- intros (-> & -> & _ & y & Y & P & C). apply spaced_bool in Y as (r' & E & F).
           rewrite V in E, F. inversion E; subst. rewrite F. rewrite (proj2 (Rltb_true _ _) P).
           now rewrite (proj2 (isclose_near _ _) C).
    + split; [easy|tauto].
  - split; [easy|]. intros (_ & _ & _ & y & (Y & _) & _). lia.
Qed.
Lemma lat_checks_err n lat nlon d e : length lat <> 1%nat -> lat_checks n lat nlon d = Err e ->
  e = AssertionError /\ ~ regular_lat lat nlon d.
Proof.
  intros L1 H. split.
  - revert H. unfold lat_checks, passert. destruct (Nat.ltb_spec 0 (length lat)) as [L|L]; [|congruence].
    destruct (Nat.eqb _ _); [|congruence].
    destruct (vdiff lat) as [|y r] eqn:V.
    + exfalso. pose proof (vdiff_length lat) as K. rewrite V in K. cbn in K. lia.
    + destruct (forallb _ _); [|congruence]. destruct (Rltb _ _); [|congruence]. destruct (isclose _ _); congruence.
  - intros R. assert (E : lat_checks n lat nlon d = Ok (n, lat)) by now apply lat_checks_ok. congruence.
Qed.

Lemma In_long ds v d : In d (long_dims ds v) -> In d (x_dims v) /\ ds_size ds d <> 1%nat.
Proof.
  unfold long_dims. rewrite filter_In. intros [I E]. split; [exact I|]. intros H. rewrite H in E. easy.
Qed.
Definition single (d : string) (k : nat) : string -> nat := fun e => if String.eqb e d then k else 0%nat.
Lemma flat_single ds d k : ds_size ds d <> 1%nat -> flat_on ds (single d k).
Proof. intros H e E. unfold single. destruct (String.eqb_spec e d); [congruence|easy]. Qed.
(** outcome of looking up a coordinate *)
Inductive found (ds : dataset) (n : string) : Prop :=
| found_key : ds_coord (squeeze ds) n = Err KeyError -> (forall x, ~ coordinate ds n x) -> found ds n
| found_shape v : ds_coord (squeeze ds) n = Ok v -> length (x_dims v) <> 1%nat -> (forall x, ~ coordinate ds n x) -> found ds n
| found_ok v x : ds_coord (squeeze ds) n = Ok v -> length (x_dims v) = 1%nat ->
    map lab_num (values1 (squeeze ds) v) = x -> length x <> 1%nat -> coordinate ds n x -> found ds n.
Lemma coordinate_fun ds n x y : valid_ds ds -> coordinate ds n x -> coordinate ds n y -> x = y.
Proof.
  intros V (v & d & N & _ & L & Lx & Hx) (w & e & N' & _ & L' & Ly & Hy).
  rewrite <- (named_fun _ _ _ _ V N N') in *. rewrite L in L'. inversion L'; subst e.
  apply (list_eq_nth 0); [congruence|]. intros k K. rewrite Lx in K. now rewrite Hx, Hy.
Qed.
Lemma find_coord ds n : valid_ds ds -> found ds n.
Proof.
  intros V. destruct (ds_get (squeeze ds) n) as [v'|e] eqn:G.
  - destruct (get_named _ _ _ G) as (v & N & Q1 & Q2 & Q3).
    destruct (x_coord v') eqn:C.
    + assert (E : ds_coord (squeeze ds) n = Ok v') by (unfold ds_coord; rewrite G; cbn; now rewrite C).
      destruct (x_dims v') as [|d [|d2 r]] eqn:D.
      * apply (found_shape _ _ v'); [exact E|rewrite D; easy|].
        intros x (w & d & N' & _ & L & _). rewrite <- (named_fun _ _ _ _ V N N') in L. congruence.
      * apply (found_ok _ _ v' (map lab_num (values1 (squeeze ds) v'))); [exact E|now rewrite D|reflexivity| |].
        -- unfold values1. rewrite D, map_length, tab_length. cbn [squeeze ds_size].
           apply (In_long ds v). rewrite <- Q2. now left.
        -- exists v, d. split; [exact N|]. split; [congruence|]. split; [easy|].
           assert (S : ds_size ds d <> 1%nat) by (apply (In_long ds v); rewrite <- Q2; now left).
           unfold values1. rewrite D. cbn [squeeze ds_size]. split; [now rewrite map_length, tab_length|].
           intros k K. rewrite (nth_map_lt _ _ _ (@VNum numR 0)) by (now rewrite tab_length).
           rewrite tab_nth by exact K. f_equal.
           pose proof (Q3 (single d k) (flat_single _ _ _ S)) as W. unfold single in W. rewrite <- W.
           cbn [map]. now rewrite String.eqb_refl.
      * apply (found_shape _ _ v'); [exact E|rewrite D; easy|].
        intros x (w & d' & N' & _ & L & _). rewrite <- (named_fun _ _ _ _ V N N') in L. congruence.
    + apply found_key; [unfold ds_coord; rewrite G; cbn; now rewrite C|].
      intros x (w & d & N' & C' & _). rewrite <- (named_fun _ _ _ _ V N N') in C'. congruence.
  - destruct (get_err _ _ _ G) as [-> NN]. apply found_key; [unfold ds_coord; now rewrite G|].
    intros x (w & d & N' & _). now apply (NN w).
Qed.
Lemma check_lon_coord ds n lon : valid_ds ds -> coordinate ds n lon ->
  check_lon (squeeze ds) (Some n) = lon_checks n lon /\ length lon <> 1%nat.
Proof.
  intros V C. destruct (find_coord ds n V) as [E F|v E L F|v x E L X N C']; [destruct (F _ C)..|].
  rewrite (coordinate_fun _ _ _ _ V C C') in *. split; [|exact N].
  unfold check_lon. rewrite E. cbn [bind]. rewrite L, X. reflexivity.
Qed.
Lemma check_lat_coord ds n lat lon d : valid_ds ds -> coordinate ds n lat ->
  check_lat (squeeze ds) (Some n) lon d = lat_checks n lat (length lon) d /\ length lat <> 1%nat.
Proof.
  intros V C. destruct (find_coord ds n V) as [E F|v E L F|v x E L X N C']; [destruct (F _ C)..|].
  rewrite (coordinate_fun _ _ _ _ V C C') in *. split; [|exact N].
  unfold check_lat. rewrite E. cbn [bind]. rewrite L, X. reflexivity.
Qed.

(** *** selection *)
Lemma fold_row ns is acc : fold_left (fun acc ni => (acc * fst ni + snd ni)%nat) (combine ns is) acc
  = (acc * size_of (map fst (combine ns is)) + row_major ns is)%nat.
Proof.
  unfold row_major. revert is acc. induction ns as [|n ns IH]; intros [|i is] acc; cbn; try lia.
  rewrite (IH is (acc * n + i)%nat), (IH is i). unfold size_of. lia.
Qed.
Lemma row_cons n ns i is : length is = length ns ->
  row_major (n :: ns) (i :: is) = (i * size_of ns + row_major ns is)%nat.
Proof.
  intros H. unfold row_major at 1. cbn [combine fold_left fst snd]. rewrite fold_row.
  replace (map fst (combine ns is)) with ns; [now rewrite Nat.mul_0_l|].
  revert is H. induction ns as [|m ns IH]; intros [|j is] H; cbn in *; try easy. f_equal. apply IH. lia.
Qed.
Lemma range_length idx sizes : in_range idx sizes -> length idx = length sizes.
Proof. intros H. induction H; cbn; lia. Qed.
Lemma row_bound sizes idx : in_range idx sizes -> (row_major sizes idx < size_of sizes)%nat.
Proof.
  intros H. induction H as [|i n is ns L H IH].
  - cbn. lia.
  - rewrite row_cons by now apply range_length in H. cbn [size_of fold_right]. fold (size_of ns).
    assert (i * size_of ns + size_of ns <= n * size_of ns)%nat by nia. lia.
Qed.
Lemma product_length {A} (ls : list (list A)) : length (product ls) = size_of (map (@length A) ls).
Proof.
  induction ls as [|xs ls IH]; [easy|]. cbn [product map size_of fold_right]. fold (size_of (map (@length A) ls)).
  rewrite <- IH. generalize (product ls). intros p. induction xs as [|x xs IHx]; cbn; [easy|].
  rewrite app_length, map_length, IHx. lia.
Qed.
Fixpoint pick {A} (d : A) (ls : list (list A)) (idx : list nat) : list A :=
  match ls, idx with
  | xs :: ls, i :: idx => nth i xs d :: pick d ls idx
  | _, _ => []
  end.
Lemma nth_error_blocks {A B} (f : A -> list B) m xs i j d : (forall x, length (f x) = m) -> (i < length xs)%nat -> (j < m)%nat ->
  nth_error (flat_map f xs) (i * m + j) = nth_error (f (nth i xs d)) j.
Proof.
  intros F. revert i. induction xs as [|x xs IH]; intros i Hi Hj; cbn [length] in Hi; [lia|].
  cbn [flat_map]. destruct i as [|i].
  - cbn [nth]. rewrite nth_error_app1; [easy|]. rewrite F. lia.
  - cbn [nth]. rewrite nth_error_app2 by (rewrite F; lia). rewrite F.
    replace (S i * m + j - m)%nat with (i * m + j)%nat by lia. apply IH; lia.
Qed.
Lemma product_nth {A} (d : A) (ls : list (list A)) idx : in_range idx (map (@length A) ls) ->
  nth_error (product ls) (row_major (map (@length A) ls) idx) = Some (pick d ls idx).
Proof.
  revert idx. induction ls as [|xs ls IH]; intros idx H; inversion H as [|i n is ns Hi H2]; subst.
  - reflexivity.
  - cbn [product map]. rewrite row_cons by now apply range_length in H2.
    rewrite <- product_length. rewrite (nth_error_blocks _ (length (product ls)) xs i _ d).
    + rewrite nth_error_map. rewrite (IH _ H2). reflexivity.
    + intros x. apply map_length.
    + exact Hi.
    + rewrite product_length. now apply row_bound.
Qed.
Lemma lab_eqb_refl x : lab_eqb x x = true.
Proof. destruct x; cbn; [now apply Reqb_true|apply Z.eqb_refl..]. Qed.
Lemma lab_eqb_true x y : lab_eqb x y = true <-> x = y.
Proof.
  split; [|intros <-; apply lab_eqb_refl]. destruct x, y; cbn; try easy.
  - intros H. apply Reqb_true in H. congruence.
  - intros H. apply Z.eqb_eq in H. congruence.
  - intros H. apply Z.eqb_eq in H. congruence.
Qed.
Lemma sel_index_at ls k i : (k < length ls)%nat -> sel_index ls (nth k ls (@VNum numR 0)) = Ok i -> i = k.
Proof.
  intros K. unfold sel_index. destruct (filter _ _) as [|a [|b r]] eqn:F; [easy| |easy].
  intros E. assert (a = i) by congruence. subst a.
  assert (I : In k [i]); [|destruct I as [I|[]]; congruence].
  rewrite <- F. apply filter_In. split; [apply in_seq; lia|apply lab_eqb_refl].
Qed.
Lemma filter_one (p : nat -> bool) n k : (k < n)%nat -> p k = true -> (forall j, (j < n)%nat -> p j = true -> j = k) ->
  filter p (seq 0 n) = [k].
Proof.
  intros K P U. replace n with (k + S (n - S k))%nat by lia. rewrite seq_app, filter_app. cbn [seq filter Nat.add].
  rewrite P. assert (E1 : filter p (seq 0 k) = []).
  { destruct (filter p (seq 0 k)) as [|a r] eqn:F; [easy|]. assert (In a (a :: r)) as I by now left.
    rewrite <- F in I. apply filter_In in I as [I1 I2]. apply in_seq in I1. apply U in I2; lia. }
  assert (E2 : filter p (seq (S k) (n - S k)) = []).
  { destruct (filter p (seq (S k) (n - S k))) as [|a r] eqn:F; [easy|]. assert (In a (a :: r)) as I by now left.
    rewrite <- F in I. apply filter_In in I as [I1 I2]. apply in_seq in I1. apply U in I2; lia. }
  rewrite E1, E2. reflexivity.
Qed.
Definition unique_labels (ls : list lab) : Prop :=
  forall i j, (i < length ls)%nat -> (j < length ls)%nat -> nth i ls (@VNum numR 0) = nth j ls (@VNum numR 0) -> i = j.
Lemma sel_index_unique ls k : (k < length ls)%nat -> unique_labels ls -> sel_index ls (nth k ls (@VNum numR 0)) = Ok k.
Proof.
  intros K U. unfold sel_index. rewrite (filter_one _ _ k K); [easy|apply lab_eqb_refl|].
  intros j J E. apply lab_eqb_true in E. now apply U.
Qed.
Lemma sel_index_twice ls k j : (k < length ls)%nat -> (j < length ls)%nat -> j <> k ->
  nth j ls (@VNum numR 0) = nth k ls (@VNum numR 0) -> sel_index ls (nth k ls (@VNum numR 0)) = Err ValueError.
Proof.
  intros K J N E. unfold sel_index. destruct (filter _ _) as [|a [|b r]] eqn:F; [| |easy].
  - exfalso. assert (I : In k []); [|easy]. rewrite <- F. apply filter_In. split; [apply in_seq; lia|apply lab_eqb_refl].
  - exfalso. assert (I : In k [a]) by (rewrite <- F; apply filter_In; split; [apply in_seq; lia|apply lab_eqb_refl]).
    assert (I2 : In j [a]) by (rewrite <- F; apply filter_In; split; [apply in_seq; lia|now apply lab_eqb_true]).
    destruct I as [I|[]], I2 as [I2|[]]. congruence.
Qed.
Lemma sel_indices_at ls idx idx' : in_range idx (map (@length lab) ls) ->
  sel_indices ls (pick (@VNum numR 0) ls idx) = Ok idx' -> idx' = idx.
Proof.
  revert idx idx'. induction ls as [|xs ls IH]; intros idx idx' H; inversion H as [|i n is ns Hi H2]; subst; cbn [pick sel_indices].
  - congruence.
  - destruct (sel_index _ _) as [a|] eqn:E; cbn [bind]; [|easy]. apply (sel_index_at _ _ _ Hi) in E. subst a.
    destruct (sel_indices _ _) as [b|] eqn:E2; cbn [bind]; [|easy]. rewrite (IH _ _ H2 E2). congruence.
Qed.
Lemma sel_indices_unique ls idx : in_range idx (map (@length lab) ls) -> Forall unique_labels ls ->
  sel_indices ls (pick (@VNum numR 0) ls idx) = Ok idx.
Proof.
  intros H U. revert idx H. induction U as [|xs ls U1 U IH]; intros idx H; inversion H as [|i n is ns Hi H2]; subst; cbn [pick sel_indices].
  - easy.
  - rewrite (sel_index_unique _ _ Hi U1). cbn [bind]. now rewrite (IH _ H2).
Qed.
(** every element of the product is picked by some multi-index *)
Lemma product_In {A} (d : A) (ls : list (list A)) x : In x (product ls) ->
  exists idx, in_range idx (map (@length A) ls) /\ x = pick d ls idx.
Proof.
  revert x. induction ls as [|xs ls IH]; intros x I; cbn [product] in I.
  - destruct I as [<-|[]]. exists nil. split; [constructor|easy].
  - apply in_flat_map in I as (y & Y & I). apply in_map_iff in I as (z & <- & Z).
    destruct (IH z Z) as (idx & R & ->). apply (In_nth _ _ d) in Y as (k & K & <-).
    exists (k :: idx). split; [now constructor|easy].
Qed.

(** *** positions *)
Lemma place_notin dims idx d : ~ In d dims -> place dims idx d = 0%nat.
Proof.
  revert idx. induction dims as [|e dims IH]; intros [|k idx] H; cbn; try easy.
  destruct (String.eqb_spec d e) as [->|]; [exfalso; apply H; now left|]. apply IH. intros I. apply H. now right.
Qed.
Lemma map_place dims idx : NoDup dims -> length idx = length dims -> map (place dims idx) dims = idx.
Proof.
  revert idx. induction dims as [|e dims IH]; intros [|k idx] N L; cbn in *; try easy.
  inversion N as [|x y N1 N2]; subst. rewrite String.eqb_refl. f_equal.
  transitivity (map (place dims idx) dims); [|apply IH; [exact N2|lia]]. apply map_ext_in. intros a I.
  destruct (String.eqb_spec a e) as [->|]; [easy|reflexivity].
Qed.
Lemma place_app e1 e2 i1 i2 d : length i1 = length e1 -> In d e1 -> place (e1 ++ e2) (i1 ++ i2) d = place e1 i1 d.
Proof.
  revert i1. induction e1 as [|e e1 IH]; intros [|k i1] L I; cbn in *; try easy.
  destruct (String.eqb_spec d e) as [->|N]; [easy|]. apply IH; [lia|]. destruct I; congruence.
Qed.
Lemma index_of_place dims idx d : index_of dims idx d = place dims idx d.
Proof. revert idx. induction dims as [|e dims IH]; intros [|k idx]; cbn; rewrite ?IH; easy. Qed.
Lemma flat_place ds v idx dims : long_dims ds v = dims -> flat_on ds (place dims idx).
Proof.
  intros E d H. apply place_notin. intros I. rewrite <- E in I. apply In_long in I. tauto.
Qed.
Lemma NoDup_long ds v : NoDup (x_dims v) -> NoDup (long_dims ds v).
Proof. apply NoDup_filter. Qed.
Lemma named_NoDup ds n v : valid_ds ds -> named ds n v -> NoDup (x_dims v).
Proof.
  intros [_ V] [w I|A B C]; [now apply (V n)|]. cbn. constructor; [easy|constructor].
Qed.
