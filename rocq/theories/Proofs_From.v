(** Proofs about from_dataset. *)
From Coq Require Export String.
From Verif Require Import Spec_IO Proofs_Base Proofs_Grid Proofs_StateList Proofs_IO.
From Coq Require Import List Lia Lra.
Import ListNotations.
Local Open Scope string_scope.
Local Open Scope list_scope.

Section From.
Context (ds : dataset) (names : list (string * option string)).
Hypothesis V : valid_ds ds.
Hypothesis N : NoDup (map fst names).

Definition src_rel (src src' : source) : Prop :=
  match src, src' with
  | FromWind u v, FromWind u' v' => sq ds u u' /\ sq ds v v' /\ x_dims u' = x_dims v'
  | FromVo x, FromVo x' => sq ds x x'
  | FromAvo x, FromAvo x' => sq ds x x'
  | _, _ => False
  end.
Definition src_nodup (src : source) : Prop :=
  match src with
  | FromWind u v => NoDup (x_dims u) /\ NoDup (x_dims v)
  | FromVo x => NoDup (x_dims x)
  | FromAvo x => NoDup (x_dims x)
  end.
Definition same_dims (src : source) : Prop :=
  match src with FromWind u v => long_dims ds u = long_dims ds v | _ => True end.
Lemma dims_eqb_true a b : dims_eqb a b = true <-> a = b.
Proof.
  revert b. induction a as [|x a IH]; intros [|y b]; cbn; try easy.
  rewrite andb_true_iff, String.eqb_eq, IH. intuition congruence.
Qed.
Lemma vm ref o : var_map (squeeze ds) names ref = o <-> picks ds names ref o.
Proof. now apply var_map_picks. Qed.
Lemma origin_nodup src : origin ds names src -> src_nodup src.
Proof. intros []; cbn; eauto using named_NoDup. Qed.
Lemma choose_ok src' : choose_source (squeeze ds) names = Ok src' ->
  exists src, origin ds names src /\ src_rel src src'.
Proof.
  unfold choose_source.
  destruct (var_map (squeeze ds) names "u") as [nu|] eqn:U; [destruct (var_map (squeeze ds) names "v") as [nv|] eqn:W|].
  - destruct (ds_get (squeeze ds) nu) as [u'|] eqn:Gu; [|easy]. destruct (ds_get (squeeze ds) nv) as [v'|] eqn:Gv; [|easy].
    cbn [bind]. unfold passert. destruct (dims_eqb _ _) eqn:E; [|easy]. intros Q. inversion Q; subst src'.
    apply dims_eqb_true in E. apply get_named in Gu as (u & Nu & Su). apply get_named in Gv as (v & Nv & Sv).
    apply vm in U, W. exists (FromWind u v). split; [now apply (origin_wind _ _ nu nv)|now cbn].
  - assert (O : picks ds names "u" None \/ picks ds names "v" None) by (right; now apply vm). clear U W.
    destruct (var_map (squeeze ds) names "vo") as [n|] eqn:VO; [|destruct (var_map (squeeze ds) names "avo") as [n|] eqn:AV; [|easy]].
    + destruct (ds_get (squeeze ds) n) as [x'|] eqn:G; [|easy]. cbn [bind]. intros Q; inversion Q; subst src'.
      apply get_named in G as (x & Nx & Sx). apply vm in VO. exists (FromVo x). split; [now apply (origin_vo _ _ n)|exact Sx].
    + destruct (ds_get (squeeze ds) n) as [x'|] eqn:G; [|easy]. cbn [bind]. intros Q; inversion Q; subst src'.
      apply get_named in G as (x & Nx & Sx). apply vm in VO, AV. exists (FromAvo x). split; [now apply (origin_avo _ _ n)|exact Sx].
  - assert (O : picks ds names "u" None \/ picks ds names "v" None) by (left; now apply vm). clear U.
    destruct (var_map (squeeze ds) names "vo") as [n|] eqn:VO; [|destruct (var_map (squeeze ds) names "avo") as [n|] eqn:AV; [|easy]].
    + destruct (ds_get (squeeze ds) n) as [x'|] eqn:G; [|easy]. cbn [bind]. intros Q; inversion Q; subst src'.
      apply get_named in G as (x & Nx & Sx). apply vm in VO. exists (FromVo x). split; [now apply (origin_vo _ _ n)|exact Sx].
    + destruct (ds_get (squeeze ds) n) as [x'|] eqn:G; [|easy]. cbn [bind]. intros Q; inversion Q; subst src'.
      apply get_named in G as (x & Nx & Sx). apply vm in VO, AV. exists (FromAvo x). split; [now apply (origin_avo _ _ n)|exact Sx].
Qed.
Lemma no_wind_choose : picks ds names "u" None \/ picks ds names "v" None ->
  choose_source (squeeze ds) names =
      match var_map (squeeze ds) names "vo" with
      | Some n => do x <- ds_get (squeeze ds) n; Ok (FromVo x)
      | None =>
          match var_map (squeeze ds) names "avo" with
          | Some n => do x <- ds_get (squeeze ds) n; Ok (FromAvo x)
          | None => Err ValueError
          end
      end.
Proof.
  intros O. unfold choose_source. destruct O as [O|O]; apply vm in O; rewrite O; [easy|].
  now destruct (var_map (squeeze ds) names "u").
Qed.
Lemma choose_complete src : origin ds names src -> same_dims src ->
  exists src', choose_source (squeeze ds) names = Ok src' /\ src_rel src src'.
Proof.
  intros O S. destruct O as [nu nv u v Pu Pv Nu Nv|n x O Po Nx|n x O Po Pa Nx].
  - destruct (named_get _ _ _ V Nu) as (u' & Gu & Su). destruct (named_get _ _ _ V Nv) as (v' & Gv & Sv).
    assert (E : x_dims u' = x_dims v').
    { destruct Su as (_ & -> & _). destruct Sv as (_ & -> & _). exact S. }
    apply vm in Pu, Pv. exists (FromWind u' v'). split; [|now cbn]. unfold choose_source. rewrite Pu, Pv, Gu, Gv. cbn [bind].
    unfold passert. now rewrite (proj2 (dims_eqb_true _ _) E).
  - destruct (named_get _ _ _ V Nx) as (x' & G & Sx). exists (FromVo x'). split; [|exact Sx].
    rewrite (no_wind_choose O). apply vm in Po. now rewrite Po, G.
  - destruct (named_get _ _ _ V Nx) as (x' & G & Sx). exists (FromAvo x'). split; [|exact Sx].
    rewrite (no_wind_choose O). apply vm in Po, Pa. now rewrite Po, Pa, G.
Qed.
Lemma choose_none : picks ds names "u" None \/ picks ds names "v" None -> picks ds names "vo" None -> picks ds names "avo" None ->
  choose_source (squeeze ds) names = Err ValueError.
Proof. intros O Po Pa. rewrite (no_wind_choose O). apply vm in Po, Pa. now rewrite Po, Pa. Qed.
Lemma rel_dims src src' : src_rel src src' -> x_dims (source_data src') = long_dims ds (source_data src) /\ same_dims src.
Proof.
  destruct src, src'; cbn; try easy.
  - intros ((_ & Q & _) & (_ & Q2 & _) & E). split; [easy|]. congruence.
  - intros (_ & Q & _). easy.
  - intros (_ & Q & _). easy.
Qed.

(** *** slabs *)
Section Slab.
Context (extra : list string) (latn lonn : string).
Lemma slab_at_slab g x x' idx : sq ds x x' -> NoDup (x_dims x) -> long_dims ds x = extra ++ [latn; lonn] ->
  length idx = length extra ->
  slab_at x' (g_nlat g) (g_nlon g) idx = field_slab g x extra idx latn lonn.
Proof.
  intros (_ & D & Q) ND L Li. unfold slab_at, field_slab. apply mat_of_ext. intros i j _ _. f_equal.
  rewrite <- (Q (slab_pos extra idx latn lonn i j)) by (eapply flat_place; exact L).
  f_equal. rewrite D, L. unfold slab_pos. rewrite map_place; [easy| |].
  - rewrite <- L. now apply NoDup_long.
  - rewrite !app_length. cbn. lia.
Qed.
Lemma slab_state_time T g src idx t s : slab_state T g src extra idx latn lonn t = Ok s -> s_grid s = g /\ s_time s = t.
Proof.
  destruct src; cbn; unfold state_from_wind, state_from_vorticity, state_init; intros E; inversion E; subst; easy.
Qed.
Lemma slab_state_total T g src idx t : exists s, slab_state T g src extra idx latn lonn t = Ok s.
Proof. destruct src; cbn; unfold state_from_wind, state_from_vorticity, state_init; eauto. Qed.
Definition wind_coords (src : source) : Prop :=
  match src with FromWind _ _ => Forall (fun d => In d (map fst (ds_vars ds))) extra | _ => True end.
Lemma dim_coord_In d : is_dimension ds d -> ((exists v, dim_coord (squeeze ds) d = Some v) <-> In d (map fst (ds_vars ds))).
Proof.
  intros D. unfold dim_coord. rewrite assoc_squeeze. destruct (assoc (ds_vars ds) d) as [v|] eqn:E; cbn [option_map].
  - apply assoc_In in E. destruct (proj2 V _ _ E) as [_ H]. destruct (H D) as [C _].
    cbn [squeeze_var x_coord]. rewrite C. split; [|eauto]. intros _. apply (in_map fst) in E. exact E.
  - apply assoc_None in E. split; [|easy]. intros (v & [=]).
Qed.
Lemma coords_forallb : (forall d, In d extra -> is_dimension ds d) ->
  (forallb (fun d => match dim_coord (squeeze ds) d with Some _ => true | None => false end) extra = true
   <-> Forall (fun d => In d (map fst (ds_vars ds))) extra).
Proof.
  intros D. rewrite forallb_forall, Forall_forall. split; intros H d I; specialize (H d I).
  - apply (dim_coord_In d (D d I)). destruct (dim_coord (squeeze ds) d); [eauto|easy].
  - apply (dim_coord_In d (D d I)) in H as (v & ->). easy.
Qed.
Lemma as_state_iff T g src src' idx t s : (forall d, In d extra -> is_dimension ds d) ->
  src_rel src src' -> src_nodup src -> data_dims ds src extra latn lonn -> length idx = length extra ->
  (as_state T g (squeeze ds) src' extra (ds_size ds latn) (ds_size ds lonn) idx t = Ok s
   <-> wind_coords src /\ ds_size ds latn = g_nlat g /\ ds_size ds lonn = g_nlon g
       /\ slab_state T g src extra idx latn lonn t = Ok s).
Proof.
  intros D Hr Hn Hd L. unfold as_state, data_dims in *.
  pose proof (proj2 (rel_dims _ _ Hr)) as SD.
  assert (E : Nat.eqb (ds_size ds latn) (g_nlat g) && Nat.eqb (ds_size ds lonn) (g_nlon g) = true
              <-> ds_size ds latn = g_nlat g /\ ds_size ds lonn = g_nlon g).
  { rewrite andb_true_iff, !Nat.eqb_eq. tauto. }
  destruct (Nat.eqb (ds_size ds latn) (g_nlat g) && Nat.eqb (ds_size ds lonn) (g_nlon g)).
  - destruct (proj1 E eq_refl) as [E1 E2]. rewrite E1, E2.
    destruct src as [u v|x|x], src' as [u' v'|x'|x']; cbn [src_rel src_nodup source_data same_dims wind_coords slab_state] in *; try easy.
    + destruct Hr as (Su & Sv & _). destruct Hn as [Nu Nv].
      rewrite (slab_at_slab g u u' idx Su Nu Hd L). rewrite (slab_at_slab g v v' idx Sv Nv); [|congruence|exact L].
      rewrite <- (coords_forallb D). destruct (forallb _ extra); intuition congruence.
    + rewrite (slab_at_slab g x x' idx Hr Hn Hd L). tauto.
    + rewrite (slab_at_slab g x x' idx Hr Hn Hd L). tauto.
  - split.
    + destruct src'; [destruct (forallb _ extra)|..]; easy.
    + intros (_ & E1 & E2 & _). exfalso. assert (false = true) by tauto. easy.
Qed.
Lemma forallb_incl l m : forallb (fun d => mem d m) l = true <-> incl l m.
Proof.
  rewrite forallb_forall. unfold incl. split; intros H d I; specialize (H d I); now apply mem_In.
Qed.
Lemma time_iff src idx tf t : data_dims ds src extra latn lonn -> length idx = length extra ->
  (forall v, time_coord ds names (extra ++ [latn; lonn]) v -> time_coord ds names extra v) ->
  (time_of (squeeze ds) (var_map (squeeze ds) names "time") extra [latn; lonn] idx tf = Ok t
   <-> slab_time ds names extra idx latn lonn tf t).
Proof.
  intros Hd L NoXY. unfold time_of, slab_time.
  assert (F : flat_on ds (place extra idx)).
  { intros d H. apply place_notin. intros I. assert (J : In d (long_dims ds (source_data src))).
    { rewrite Hd. apply in_or_app. now left. } apply In_long in J. tauto. }
  destruct (var_map (squeeze ds) names "time") as [n|] eqn:P.
  - apply vm in P. rewrite assoc_squeeze. destruct (assoc (ds_vars ds) n) as [v|] eqn:A; cbn [option_map].
    + pose proof (assoc_In _ _ _ A) as I. cbn [squeeze_var x_coord x_dims x_at]. fold (long_dims ds v).
      assert (Only : forall dims w, time_coord ds names dims w -> w = v /\ x_coord v = true /\ incl (long_dims ds v) dims).
      { intros dims w (m & Pm & Im & C & Inc). assert (m = n) by (pose proof (picks_fun _ _ _ _ _ N P Pm); congruence). subst m.
        apply (In_assoc _ _ _ (proj1 V)) in Im. assert (w = v) by congruence. now subst w. }
      destruct (x_coord v) eqn:C; cbn [andb].
      * destruct (forallb _ (long_dims ds v)) eqn:F1.
        -- apply forallb_incl in F1.
           assert (TC : time_coord ds names extra v) by (apply NoXY; now exists n).
           assert (F2 : forallb (fun d => mem d extra) (long_dims ds v) = true).
           { apply forallb_incl. destruct TC as (m & Pm & _ & _ & Inc). exact Inc. }
           rewrite F2.
           assert (Q : x_at v (unsqueeze (ds_size ds) (x_dims v) (map (index_of extra idx) (long_dims ds v))) = at_pos v (place extra idx)).
           { unfold at_pos. f_equal. rewrite <- (unsqueeze_map ds (place extra idx) (x_dims v) F). reflexivity. }
           rewrite Q. split.
           ++ intros E. left. exists v. split; [exact TC|]. congruence.
           ++ intros [(w & W & ->)|[H _]].
              ** destruct (Only _ _ W) as [-> _]. reflexivity.
              ** exfalso. apply (H v). now exists n.
        -- split.
           ++ intros E. right. split; [|congruence]. intros w W. destruct (Only _ _ W) as (_ & _ & Inc).
              apply forallb_incl in Inc. congruence.
           ++ intros [(w & W & ->)|[_ ->]]; [|reflexivity]. exfalso. destruct (Only _ _ W) as (_ & _ & Inc).
              assert (incl (long_dims ds v) (extra ++ [latn; lonn])) as I2 by (apply incl_appl; exact Inc).
              apply forallb_incl in I2. congruence.
      * split.
        -- intros E. right. split; [|congruence]. intros w W. destruct (Only _ _ W) as (_ & C' & _). easy.
        -- intros [(w & W & ->)|[_ ->]]; [|reflexivity]. exfalso. destruct (Only _ _ W) as (_ & C' & _). easy.
    + apply assoc_None in A. assert (No : forall dims w, ~ time_coord ds names dims w).
      { intros dims w (m & Pm & Im & _). assert (m = n) by (pose proof (picks_fun _ _ _ _ _ N P Pm); congruence). subst m.
        apply A. apply (in_map fst) in Im. exact Im. }
      split; [intros E; right; split; [apply No|congruence]|]. intros [(w & W & _)|[_ ->]]; [destruct (No _ _ W)|reflexivity].
  - apply vm in P. assert (No : forall dims w, ~ time_coord ds names dims w).
    { intros dims w (m & Pm & _). pose proof (picks_fun _ _ _ _ _ N P Pm). easy. }
    split; [intros E; right; split; [apply No|congruence]|]. intros [(w & W & _)|[_ ->]]; [destruct (No _ _ W)|reflexivity].
Qed.
(** without an assumption on the time coordinate: one direction *)
Lemma time_inv src idx tf t : data_dims ds src extra latn lonn -> length idx = length extra ->
  time_of (squeeze ds) (var_map (squeeze ds) names "time") extra [latn; lonn] idx tf = Ok t ->
  slab_time ds names extra idx latn lonn tf t.
Proof.
  intros Hd L E. destruct (var_map (squeeze ds) names "time") as [n|] eqn:P.
  - refine (proj1 (time_iff src idx tf t Hd L _) _); [|rewrite P; exact E].
    intros v (m & Pm & Im & C & Inc). apply vm in Pm. assert (m = n) by congruence. subst m.
    exists n. split; [now apply vm|]. split; [exact Im|]. split; [exact C|].
    revert E. unfold time_of. rewrite assoc_squeeze, (In_assoc _ _ _ (proj1 V) Im). cbn [option_map squeeze_var x_coord x_dims].
    fold (long_dims ds v). rewrite C, (proj2 (forallb_incl _ _) Inc). cbn [andb].
    destruct (forallb (fun d => mem d extra) (long_dims ds v)) eqn:F; [|easy]. intros _. now apply forallb_incl.
  - refine (proj1 (time_iff src idx tf t Hd L _) _); [|rewrite P; exact E].
    intros v (m & Pm & _). apply vm in Pm. congruence.
Qed.
End Slab.
End From.

Lemma split_dims_ok dims extra d2 d1 : split_dims dims = Ok (extra, d2, d1) <-> dims = extra ++ [d2; d1].
Proof.
  unfold split_dims. split.
  - intros H. rewrite <- (rev_involutive dims). destruct (rev dims) as [|a [|b r]]; try easy.
    inversion H; subst. cbn [rev]. now rewrite <- app_assoc.
  - intros ->. rewrite rev_app_distr. cbn. now rewrite rev_involutive.
Qed.
Lemma Forall2_nth_error {A B} (P : A -> B -> Prop) l m : Forall2 P l m -> forall i a, nth_error l i = Some a ->
  exists b, nth_error m i = Some b /\ P a b.
Proof.
  intros H. induction H as [|x y l m Hxy H IH]; intros [|i] a E; cbn in *; try easy.
  - inversion E; subst. eauto.
  - eauto.
Qed.
Lemma res_map_total {A B} (f : A -> res B) l : (forall x, In x l -> exists y, f x = Ok y) -> exists r, res_map f l = Ok r.
Proof.
  induction l as [|a l IH]; intros H; cbn; [eauto|]. destruct (H a) as (y & Y); [now left|]. rewrite Y. cbn [bind].
  destruct IH as (r & R); [intros x I; apply H; now right|]. rewrite R. cbn. eauto.
Qed.

Section Main.
Context (T : sphfam) (ds : dataset) (names : list (string * option string)) (rs om : R) (nt : option Z) (tf : lab).
Hypothesis V : valid_ds ds.
Hypothesis N : NoDup (map fst names).

Lemma labels_length d : length (dim_labels (squeeze ds) d) = ds_size ds d.
Proof. unfold dim_labels. now rewrite tab_length. Qed.
Lemma labels_lengths extra : map (@length lab) (map (dim_labels (squeeze ds)) extra) = map (ds_size ds) extra.
Proof. rewrite map_map. apply map_ext. apply labels_length. Qed.
Lemma labels_nth d x i : is_dimension ds d -> ds_size ds d <> 1%nat -> named ds d x -> (i < ds_size ds d)%nat ->
  nth i (dim_labels (squeeze ds) d) (@VNum numR 0) = x_at x [i].
Proof.
  intros D S H I. unfold dim_labels. rewrite tab_nth by exact I. unfold dim_coord. rewrite assoc_squeeze.
  destruct H as [v J|A B C].
  - rewrite (In_assoc _ _ _ (proj1 V) J). cbn [option_map squeeze_var x_coord].
    destruct (proj2 V _ _ J) as [_ Q]. destruct (Q D) as [C E]. rewrite C. cbn [squeeze_var x_at]. rewrite E. cbn [unsqueeze].
    destruct (Nat.eqb_spec (ds_size ds d) 1); [easy|reflexivity].
  - apply assoc_None in A. rewrite A. reflexivity.
Qed.
Lemma dim_named d : is_dimension ds d -> ds_size ds d <> 1%nat -> exists x, named ds d x.
Proof.
  intros D S. destruct (assoc (ds_vars ds) d) as [v|] eqn:E.
  - apply assoc_In in E. exists v. now constructor.
  - apply assoc_None in E. eexists. now apply named_dim.
Qed.
Lemma distinct_unique d : is_dimension ds d -> ds_size ds d <> 1%nat ->
  (distinct_labels ds d <-> unique_labels (dim_labels (squeeze ds) d)).
Proof.
  intros D S. unfold distinct_labels, unique_labels. rewrite labels_length. split.
  - intros H i j I J E. destruct (dim_named d D S) as (x & X). apply (H x i j X I J).
    now rewrite <- !(labels_nth d x) by assumption.
  - intros H x i j X I J E. apply H; try assumption. now rewrite !(labels_nth d x) by assumption.
Qed.
Lemma origin_dim src d : origin ds names src -> In d (long_dims ds (source_data src)) -> is_dimension ds d /\ ds_size ds d <> 1%nat.
Proof.
  intros O I. apply In_long in I as [I S]. split; [|exact S].
  assert (Q : forall n x, named ds n x -> In d (x_dims x) -> is_dimension ds d).
  { intros n x [v J|A B C] K; [now exists n, v|]. cbn in K. destruct K as [<-|[]]. exact B. }
  destruct O; cbn [source_data] in I; eauto.
Qed.

(** what an accepted dataset looks like *)
Definition accepted (lonn latn : string) (lon lat : vec) (dlon : R) (g : grid) (src : source) (extra : list string) : Prop :=
  picks ds names "lon" (Some lonn) /\ picks ds names "lat" (Some latn)
  /\ coordinate ds lonn lon /\ coordinate ds latn lat
  /\ regular_lon lon dlon /\ regular_lat lat (length lon) dlon
  /\ mk_grid dlon rs om nt = Ok g
  /\ origin ds names src /\ same_dims ds src /\ data_dims ds src extra latn lonn.
Definition the_states (g : grid) (src : source) (extra : list string) (latn lonn : string) (r : list (state numR)) : Prop :=
  length r = size_of (map (ds_size ds) extra)
  /\ forall idx, in_range idx (map (ds_size ds) extra) ->
       exists s t, nth_error r (row_major (map (ds_size ds) extra) idx) = Some s
         /\ slab_time ds names extra idx latn lonn tf t
         /\ slab_state T g src extra idx latn lonn t = Ok s
         /\ wind_coords ds extra src /\ ds_size ds latn = g_nlat g /\ ds_size ds lonn = g_nlon g
         /\ sel_indices (map (dim_labels (squeeze ds)) extra) (pick (@VNum numR 0) (map (dim_labels (squeeze ds)) extra) idx) = Ok idx.

Lemma from_stage e lonn lon dlon latn lat g src' extra d2 d1 :
  check_lon (squeeze ds) (var_map (squeeze ds) names "lon") = Ok (lonn, lon, dlon) ->
  check_lat (squeeze ds) (var_map (squeeze ds) names "lat") lon dlon = Ok (latn, lat) ->
  mk_grid dlon rs om nt = Ok g -> choose_source (squeeze ds) names = Ok src' ->
  split_dims (x_dims (source_data src')) = Ok (extra, d2, d1) -> d2 = latn -> d1 = lonn ->
  from_dataset T ds names rs om nt tf = e <->
  (do states <- res_map (fun selection =>
      do idx <- sel_indices (map (dim_labels (squeeze ds)) extra) selection;
      do time <- time_of (squeeze ds) (var_map (squeeze ds) names "time") extra [latn; lonn] idx tf;
      as_state T g (squeeze ds) src' extra (ds_size ds latn) (ds_size ds lonn) idx time) (product (map (dim_labels (squeeze ds)) extra));
   mk_statelist (E := R) (O := unit) (map XState states)) = e.
Proof.
  intros H1 H2 H3 H4 H5 -> ->. unfold from_dataset. cbv zeta. rewrite H1. cbn [bind]. rewrite H2. cbn [bind].
  rewrite H3. cbn [bind]. rewrite H4. cbn [bind]. rewrite H5. cbn [bind]. unfold passert. rewrite !String.eqb_refl.
  reflexivity.
Qed.

Lemma lon_stage lonn lon dlon : check_lon (squeeze ds) (var_map (squeeze ds) names "lon") = Ok (lonn, lon, dlon) <->
  picks ds names "lon" (Some lonn) /\ coordinate ds lonn lon /\ regular_lon lon dlon.
Proof.
  split.
  - intros H. destruct (var_map (squeeze ds) names "lon") as [n|] eqn:P; [|easy]. apply (vm ds names N) in P.
    destruct (find_coord ds n V) as [E F|v E L F|v x E L X NL C].
    + exfalso. unfold check_lon in H. rewrite E in H. easy.
    + exfalso. unfold check_lon in H. rewrite E in H. cbn [bind] in H. unfold passert in H at 1.
      destruct (Nat.eqb_spec (length (x_dims v)) 1); easy.
    + destruct (check_lon_coord ds n x V C) as [Q _]. rewrite Q in H. apply lon_checks_ok in H as (-> & -> & R). auto.
  - intros (P & C & R). apply (vm ds names N) in P. rewrite P.
    destruct (check_lon_coord ds lonn lon V C) as [-> _]. now apply lon_checks_ok.
Qed.
Lemma lat_stage latn lat lon dlon : check_lat (squeeze ds) (var_map (squeeze ds) names "lat") lon dlon = Ok (latn, lat) <->
  picks ds names "lat" (Some latn) /\ coordinate ds latn lat /\ regular_lat lat (length lon) dlon.
Proof.
  split.
  - intros H. destruct (var_map (squeeze ds) names "lat") as [n|] eqn:P; [|easy]. apply (vm ds names N) in P.
    destruct (find_coord ds n V) as [E F|v E L F|v x E L X NL C].
    + exfalso. unfold check_lat in H. rewrite E in H. easy.
    + exfalso. unfold check_lat in H. rewrite E in H. cbn [bind] in H. unfold passert in H at 1.
      destruct (Nat.eqb_spec (length (x_dims v)) 1); easy.
    + destruct (check_lat_coord ds n x lon dlon V C) as [Q _]. rewrite Q in H. apply lat_checks_ok in H as (-> & -> & R). auto.
  - intros (P & C & R). apply (vm ds names N) in P. rewrite P.
    destruct (check_lat_coord ds latn lat lon dlon V C) as [-> _]. now apply lat_checks_ok.
Qed.

Lemma from_inv r : from_dataset T ds names rs om nt tf = Ok r ->
  exists lonn latn lon lat dlon g src extra,
    accepted lonn latn lon lat dlon g src extra /\ the_states g src extra latn lonn r.
Proof.
  intros H. pose proof H as H0. unfold from_dataset in H. cbv zeta in H.
  destruct (check_lon _ _) as [[[lonn lon] dlon]|] eqn:E1; [|easy]. cbn [bind] in H.
  destruct (check_lat _ _ _ _) as [[latn lat]|] eqn:E2; [|easy]. cbn [bind] in H.
  destruct (mk_grid dlon rs om nt) as [g|] eqn:E3; [|easy]. cbn [bind] in H.
  destruct (choose_source _ _) as [src'|] eqn:E4; [|easy]. cbn [bind] in H.
  destruct (split_dims _) as [[[extra d2] d1]|] eqn:E5; [|easy]. cbn [bind] in H.
  unfold passert in H. destruct (String.eqb_spec d2 latn) as [->|]; [|easy]. destruct (String.eqb_spec d1 lonn) as [->|]; [|easy].
  clear H. apply (from_stage _ _ _ _ _ _ _ _ _ _ _ E1 E2 E3 E4 E5 eq_refl eq_refl) in H0.
  apply lon_stage in E1 as (P1 & C1 & R1). apply lat_stage in E2 as (P2 & C2 & R2).
  apply (choose_ok _ _ N) in E4 as (src & O & SR). apply split_dims_ok in E5.
  destruct (rel_dims _ _ _ SR) as [D SD]. rewrite D in E5.
  exists lonn, latn, lon, lat, dlon, g, src, extra. split; [unfold accepted; tauto|].
  destruct (res_map _ _) as [states|] eqn:E6; [|easy]. cbn [bind] in H0.
  apply mk_accepts in H0 as [H0 _]. apply XState_map in H0. subst r.
  apply res_map_ok in E6. split.
  - rewrite <- (Forall2_len _ _ _ E6), product_length, labels_lengths. reflexivity.
  - intros idx R. assert (R' : in_range idx (map (@length lab) (map (dim_labels (squeeze ds)) extra))) by now rewrite labels_lengths.
    destruct (Forall2_nth_error _ _ _ E6 _ _ (product_nth (@VNum numR 0) _ idx R')) as (s & S1 & S2).
    rewrite labels_lengths in S1. cbv beta in S2.
    destruct (sel_indices _ _) as [idx'|] eqn:Q; [|easy]. pose proof (sel_indices_at _ _ _ R' Q). subst idx'. cbn [bind] in S2.
    destruct (time_of _ _ _ _ _ _) as [t|] eqn:Ht; [|easy]. cbn [bind] in S2.
    assert (L : length idx = length extra) by (apply range_length in R; now rewrite map_length in R).
    apply (time_inv ds names V N extra latn lonn src _ _ _ E5 L) in Ht.
    apply (as_state_iff ds V extra latn lonn T g src src' idx t s) in S2; try assumption.
    + exists s, t. tauto.
    + intros d I. apply (origin_dim src d O). rewrite E5. apply in_or_app. now left.
    + exact (origin_nodup ds names V src O).
Qed.

Lemma from_complete lonn latn lon lat dlon g src extra :
  accepted lonn latn lon lat dlon g src extra ->
  ds_size ds latn = g_nlat g -> ds_size ds lonn = g_nlon g ->
  Forall (distinct_labels ds) extra -> wind_coords ds extra src ->
  (forall v, time_coord ds names (extra ++ [latn; lonn]) v -> time_coord ds names extra v) ->
  exists r, from_dataset T ds names rs om nt tf = Ok r.
Proof.
  intros (P1 & P2 & C1 & C2 & R1 & R2 & G & O & SD & DD) S1 S2 U WC TC.
  destruct (choose_complete ds names V N src O SD) as (src' & E4 & SR).
  destruct (rel_dims _ _ _ SR) as [D _].
  assert (E1 : check_lon (squeeze ds) (var_map (squeeze ds) names "lon") = Ok (lonn, lon, dlon)) by now apply lon_stage.
  assert (E2 : check_lat (squeeze ds) (var_map (squeeze ds) names "lat") lon dlon = Ok (latn, lat)) by now apply lat_stage.
  assert (E5 : split_dims (x_dims (source_data src')) = Ok (extra, latn, lonn)) by (apply split_dims_ok; now rewrite D).
  assert (Dim : forall d, In d extra -> is_dimension ds d /\ ds_size ds d <> 1%nat).
  { intros d I. apply (origin_dim src d O). rewrite DD. apply in_or_app. now left. }
  destruct (res_map_total (fun selection =>
      do idx <- sel_indices (map (dim_labels (squeeze ds)) extra) selection;
      do time <- time_of (squeeze ds) (var_map (squeeze ds) names "time") extra [latn; lonn] idx tf;
      as_state T g (squeeze ds) src' extra (ds_size ds latn) (ds_size ds lonn) idx time) (product (map (dim_labels (squeeze ds)) extra)))
    as (states & ES).
  - intros sel I. apply (product_In (@VNum numR 0)) in I as (idx & R & ->).
    rewrite sel_indices_unique; [|exact R|].
    + cbn [bind]. assert (L : length idx = length extra) by (apply range_length in R; now rewrite !map_length in R).
      assert (exists t, time_of (squeeze ds) (var_map (squeeze ds) names "time") extra [latn; lonn] idx tf = Ok t) as (t & Et).
      { assert (exists t, slab_time ds names extra idx latn lonn tf t) as (t & St).
        { unfold slab_time. destruct (var_map (squeeze ds) names "time") as [n|] eqn:P.
          - apply (vm ds names N) in P. destruct (assoc (ds_vars ds) n) as [v|] eqn:A.
            + apply assoc_In in A. destruct (x_coord v) eqn:C.
              * destruct (forallb (fun d => mem d (extra ++ [latn; lonn])) (long_dims ds v)) eqn:F.
                -- apply forallb_incl in F. exists (at_pos v (place extra idx)). left. exists v. split; [|easy]. apply TC. now exists n.
                -- exists tf. right. split; [|easy]. intros w (m & Pm & Im & _ & Inc).
                   assert (m = n) by (pose proof (picks_fun _ _ _ _ _ N P Pm); congruence). subst m.
                   apply (In_assoc _ _ _ (proj1 V)) in A, Im. assert (w = v) by congruence. subst w.
                   apply forallb_incl in Inc. congruence.
              * exists tf. right. split; [|easy]. intros w (m & Pm & Im & C' & Inc).
                assert (m = n) by (pose proof (picks_fun _ _ _ _ _ N P Pm); congruence). subst m.
                apply (In_assoc _ _ _ (proj1 V)) in A, Im. congruence.
            + apply assoc_None in A. exists tf. right. split; [|easy]. intros w (m & Pm & Im & _).
              assert (m = n) by (pose proof (picks_fun _ _ _ _ _ N P Pm); congruence). subst m.
              apply A. apply (in_map fst) in Im. exact Im.
          - apply (vm ds names N) in P. exists tf. right. split; [|easy]. intros w (m & Pm & _).
            pose proof (picks_fun _ _ _ _ _ N P Pm). easy. }
        exists t. now apply (time_iff ds names V N extra latn lonn src). }
      rewrite Et. cbn [bind]. destruct (slab_state_total extra latn lonn T g src idx t) as (s & Es).
      exists s. apply (as_state_iff ds V extra latn lonn T g src src' idx t s); try assumption.
      * intros d J. now apply Dim.
      * exact (origin_nodup ds names V src O).
      * tauto.
    + apply Forall_forall. intros l I. apply in_map_iff in I as (d & <- & J). rewrite Forall_forall in U.
      destruct (Dim d J). now apply distinct_unique; [..|apply U].
  - exists states. apply (from_stage _ _ _ _ _ _ _ _ _ _ _ E1 E2 G E4 E5 eq_refl eq_refl). rewrite ES. cbn [bind].
    apply mk_accepts. split; [easy|]. apply res_map_ok in ES.
    assert (AG : Forall (fun s => s_grid s = g) states).
    { clear - ES SR DD O V Dim S1 S2. induction ES as [|a s l m H ES IH]; constructor; [|exact IH].
      destruct (sel_indices _ _) as [idx|]; [|easy]. cbn [bind] in H. destruct (time_of _ _ _ _ _ _) as [t|]; [|easy]. cbn [bind] in H.
      unfold as_state, state_from_wind, state_from_vorticity, state_init in H.
      destruct src' as [u v|x|x]; repeat match type of H with (if ?b then _ else _) = _ => destruct b end; now inversion H. }
    intros s0 H0 s I. rewrite Forall_forall in AG. rewrite (AG s I).
    rewrite (AG s0); [apply grid_eqb_refl|]. destruct states; [easy|]. inversion H0. now left.
Qed.
End Main.

(** *** how regular accepted coordinates are *)
Lemma near_step d e : near d e -> Rabs (e - d) <= / 50000000 + 11 / 1000000 * Rabs d.
Proof. unfold near. unfold Rabs. repeat destruct (Rcase_abs _); lra. Qed.
Lemma spaced_drift x d k : spaced x d -> (k < length x)%nat ->
  Rabs (nth k x 0 - nth 0 x 0 - INR k * d) <= INR k * (/ 50000000 + 11 / 1000000 * Rabs d).
Proof.
  intros (L & _ & H). induction k as [|k IH]; intros K.
  - cbn [INR]. rewrite !Rmult_0_l. unfold Rabs. destruct (Rcase_abs _); lra.
  - specialize (IH ltac:(lia)). pose proof (near_step _ _ (H k K)) as St. rewrite S_INR.
    set (q := / 50000000 + 11 / 1000000 * Rabs d) in *.
    replace (nth (S k) x 0 - nth 0 x 0 - (INR k + 1) * d)
      with ((nth k x 0 - nth 0 x 0 - INR k * d) + (nth (S k) x 0 - nth k x 0 - d)) by ring.
    eapply Rle_trans; [apply Rabs_triang|]. lra.
Qed.
Lemma lon_total lon d : regular_lon lon d -> (length lon <= 100000)%nat ->
  Rabs (INR (length lon) * d - 360) <= 96 / 10000.
Proof.
  intros (S & P & F) L. pose proof S as (L2 & _).
  pose proof (spaced_drift lon d (length lon - 1) S ltac:(lia)) as D.
  rewrite minus_INR in D by lia. cbn [INR] in D.
  apply le_INR in L, L2. rewrite INR_IZR_INZ in L2. replace (INR 100000) with 100000 in L by (rewrite INR_IZR_INZ; reflexivity).
  change (IZR (Z.of_nat 2)) with 2 in L2.
  rewrite (Rabs_pos_eq d) in D by lra. unfold near in F.
  set (n := INR (length lon)) in *. set (y := nth (length lon - 1) lon 0 - nth 0 lon 0) in *.
  assert (X : 2 * d <= n * d) by (apply Rmult_le_compat_r; lra).
  set (x := n * d) in *. replace ((n - 1) * d) with (x - d) in D by (unfold x; ring).
  replace ((n - 1) * (/ 50000000 + 11 / 1000000 * d)) with ((n - 1) * / 50000000 + 11 / 1000000 * (x - d)) in D by (unfold x; ring).
  clearbody x y n. revert D F. unfold Rabs. repeat destruct (Rcase_abs _); intros; lra.
Qed.
Lemma drift_bound (k n d : R) : 0 <= k <= n -> 0 < n -> 0 < d -> n <= 100000 -> Rabs (n * d - 360) <= 96 / 10000 ->
  Rabs (k * d - k * (360 / n)) <= 96 / 10000 /\ k * d <= 361.
Proof.
  intros K Hn D L X. split.
  - replace (k * d - k * (360 / n)) with (k / n * (n * d - 360)) by (field; lra).
    rewrite Rabs_mult. rewrite Rabs_pos_eq by (apply Rmult_le_pos; [lra|left; apply Rinv_0_lt_compat; lra]).
    assert (k / n <= 1). { apply Rmult_le_reg_r with n; [lra|]. unfold Rdiv. rewrite Rmult_assoc, Rinv_l by lra. lra. }
    assert (0 <= k / n) by (apply Rmult_le_pos; [lra|left; apply Rinv_0_lt_compat; lra]).
    pose proof (Rabs_pos (n * d - 360)). nra.
  - assert (k * d <= n * d) by (apply Rmult_le_compat_r; lra).
    revert X. unfold Rabs. destruct (Rcase_abs _); lra.
Qed.
Lemma lon_close lon d k : regular_lon lon d -> (length lon <= 100000)%nat -> (k < length lon)%nat ->
  Rabs (nth k lon 0 - nth 0 lon 0 - INR k * (360 / INR (length lon))) <= 2 / 100.
Proof.
  intros G L K. pose proof (lon_total lon d G L) as X. destruct G as (S & P & _).
  pose proof (spaced_drift lon d k S K) as D. rewrite (Rabs_pos_eq d) in D by lra.
  assert (L1 : INR (length lon) <= 100000). { apply le_INR in L. replace (INR 100000) with 100000 in L by (rewrite INR_IZR_INZ; reflexivity). exact L. }
  assert (K1 : 0 <= INR k <= INR (length lon)) by (split; [apply pos_INR|apply le_INR; lia]).
  assert (N1 : 0 < INR (length lon)) by (apply lt_0_INR; lia).
  destruct (drift_bound (INR k) (INR (length lon)) d K1 N1 P L1 X) as [B1 B2].
  replace (INR k * (/ 50000000 + 11 / 1000000 * d)) with (INR k * / 50000000 + 11 / 1000000 * (INR k * d)) in D by ring.
  replace (nth k lon 0 - nth 0 lon 0 - INR k * (360 / INR (length lon)))
    with ((nth k lon 0 - nth 0 lon 0 - INR k * d) + (INR k * d - INR k * (360 / INR (length lon)))) by ring.
  eapply Rle_trans; [apply Rabs_triang|]. lra.
Qed.
Lemma lat_close lon lat d k : regular_lon lon d -> regular_lat lat (length lon) d -> (length lon <= 100000)%nat -> (k < length lat)%nat ->
  Rabs (nth k lat 0 - nth 0 lat 0 + INR k * (360 / INR (length lon))) <= 2 / 100.
Proof.
  intros G (LL & e & S & E & F) L K. pose proof (lon_total lon d G L) as X. destruct G as (SL & P & _).
  pose proof (spaced_drift lat e k S K) as D. rewrite (Rabs_left e) in D by lra.
  assert (L1 : INR (length lon) <= 100000). { apply le_INR in L. replace (INR 100000) with 100000 in L by (rewrite INR_IZR_INZ; reflexivity). exact L. }
  assert (K2 : (2 * k <= length lon)%nat). { pose proof (Nat.div_mod (length lon) 2 ltac:(lia)). lia. }
  assert (K3 : 2 * INR k <= INR (length lon)). { apply le_INR in K2. rewrite mult_INR in K2. cbn [INR] in K2. lra. }
  assert (K0 : 0 <= INR k) by apply pos_INR.
  assert (N1 : 0 < INR (length lon)). { apply lt_0_INR. destruct SL as (Q & _). lia. }
  destruct (drift_bound (INR k) (INR (length lon)) d ltac:(lra) N1 P L1 X) as [B1 B2].
  assert (F' : Rabs (e + d) <= / 100000000 + / 100000 * d).
  { unfold near in F. rewrite Rabs_Ropp, (Rabs_pos_eq d) in F by lra. replace (e - - d) with (e + d) in F by ring. exact F. }
  assert (B3 : INR k * Rabs (e + d) <= INR k * / 100000000 + / 100000 * (INR k * d)).
  { replace (INR k * / 100000000 + / 100000 * (INR k * d)) with (INR k * (/ 100000000 + / 100000 * d)) by ring.
    apply Rmult_le_compat_l; assumption. }
  assert (B4 : INR k * - e <= INR k * d + INR k * Rabs (e + d)).
  { rewrite <- Rmult_plus_distr_l. apply Rmult_le_compat_l; [lra|]. unfold Rabs. destruct (Rcase_abs _); lra. }
  replace (INR k * (/ 50000000 + 11 / 1000000 * - e)) with (INR k * / 50000000 + 11 / 1000000 * (INR k * - e)) in D by ring.
  replace (nth k lat 0 - nth 0 lat 0 + INR k * (360 / INR (length lon)))
    with ((nth k lat 0 - nth 0 lat 0 - INR k * e) + (INR k * (e + d) + - (INR k * d - INR k * (360 / INR (length lon))))) by ring.
  eapply Rle_trans; [apply Rabs_triang|]. assert (B5 : Rabs (INR k * (e + d) + - (INR k * d - INR k * (360 / INR (length lon)))) <= INR k * Rabs (e + d) + 96 / 10000).
  { eapply Rle_trans; [apply Rabs_triang|]. rewrite Rabs_mult, Rabs_Ropp, (Rabs_pos_eq (INR k)) by lra. lra. }
  lra.
Qed.

(** *** uniqueness *)
Lemma origin_fun ds names src src' : valid_ds ds -> NoDup (map fst names) -> origin ds names src -> origin ds names src' -> src = src'.
Proof.
  intros V N A B.
  assert (P : forall ref o o', picks ds names ref o -> picks ds names ref o' -> o = o') by (intros; eapply picks_fun; eauto).
  assert (Q : forall n x n' y, Some n = Some n' -> named ds n x -> named ds n' y -> x = y).
  { intros n x n' y E X Y. inversion E; subst. eapply named_fun; eauto. }
  destruct A as [nu nv u v Pu Pv Nu Nv|n x O Po Nx|n x O Po Pa Nx];
    destruct B as [nu' nv' u' v' Pu' Pv' Nu' Nv'|n' x' O' Po' Nx'|n' x' O' Po' Pa' Nx'].
  - rewrite (Q _ _ _ _ (P _ _ _ Pu Pu') Nu Nu'), (Q _ _ _ _ (P _ _ _ Pv Pv') Nv Nv'). reflexivity.
  - destruct O' as [O'|O']; [pose proof (P _ _ _ Pu O')|pose proof (P _ _ _ Pv O')]; easy.
  - destruct O' as [O'|O']; [pose proof (P _ _ _ Pu O')|pose proof (P _ _ _ Pv O')]; easy.
  - destruct O as [O|O]; [pose proof (P _ _ _ Pu' O)|pose proof (P _ _ _ Pv' O)]; easy.
  - rewrite (Q _ _ _ _ (P _ _ _ Po Po') Nx Nx'). reflexivity.
  - pose proof (P _ _ _ Po Po'). easy.
  - destruct O as [O|O]; [pose proof (P _ _ _ Pu' O)|pose proof (P _ _ _ Pv' O)]; easy.
  - pose proof (P _ _ _ Po Po'). easy.
  - rewrite (Q _ _ _ _ (P _ _ _ Pa Pa') Nx Nx'). reflexivity.
Qed.
Lemma accepted_fun ds names rs om nt a1 a2 a3 a4 a5 a6 a7 a8 b1 b2 b3 b4 b5 b6 b7 b8 : valid_ds ds -> NoDup (map fst names) ->
  accepted ds names rs om nt a1 a2 a3 a4 a5 a6 a7 a8 -> accepted ds names rs om nt b1 b2 b3 b4 b5 b6 b7 b8 ->
  a1 = b1 /\ a2 = b2 /\ a3 = b3 /\ a4 = b4 /\ a5 = b5 /\ a6 = b6 /\ a7 = b7 /\ a8 = b8.
Proof.
  intros V N (P1 & P2 & C1 & C2 & R1 & R2 & G & O & SD & DD) (P1' & P2' & C1' & C2' & R1' & R2' & G' & O' & SD' & DD').
  assert (a1 = b1) by (pose proof (picks_fun _ _ _ _ _ N P1 P1'); congruence). subst b1.
  assert (a2 = b2) by (pose proof (picks_fun _ _ _ _ _ N P2 P2'); congruence). subst b2.
  pose proof (coordinate_fun _ _ _ _ V C1 C1'). subst b3. pose proof (coordinate_fun _ _ _ _ V C2 C2'). subst b4.
  assert (a5 = b5). { destruct R1 as ((_ & E & _) & _). destruct R1' as ((_ & E' & _) & _). congruence. } subst b5.
  assert (a6 = b6) by congruence. pose proof (origin_fun _ _ _ _ V N O O'). subst b7.
  unfold data_dims in *. rewrite DD in DD'. apply app_inv_tail in DD'. tauto.
Qed.
Lemma from_states T ds names rs om nt tf lonn latn lon lat dlon g src extra r : valid_ds ds -> NoDup (map fst names) ->
  accepted ds names rs om nt lonn latn lon lat dlon g src extra -> from_dataset T ds names rs om nt tf = Ok r ->
  the_states T ds names tf g src extra latn lonn r.
Proof.
  intros V N A H. destruct (from_inv T ds names rs om nt tf V N r H) as (b1 & b2 & b3 & b4 & b5 & b6 & b7 & b8 & B & S).
  destruct (accepted_fun _ _ _ _ _ _ _ _ _ _ _ _ _ _ _ _ _ _ _ _ _ V N A B) as (<- & <- & <- & <- & <- & <- & <- & <-). exact S.
Qed.
