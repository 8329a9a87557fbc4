(** as_dataset followed by from_dataset. *)
From Coq Require Export String.
From Verif Require Import Spec_IO Proofs_Base Proofs_Grid Proofs_StateList Proofs_State Proofs_IO Proofs_From Proofs_As Proofs_Plain.
From Coq Require Import List Lia Lra.
Import ListNotations.
Local Open Scope string_scope.
Local Open Scope list_scope.

Lemma mk_grid_same_counts a b rs om nt g : mk_grid a rs om nt = Ok g -> b <> 0 -> nlon_of b = nlon_of a -> nlat_of b = nlat_of a ->
  mk_grid b rs om nt = Ok (mkGrid b (g_rsphere g) (g_omega g) (g_nlon g) (g_nlat g) (g_ntrunc g)).
Proof.
  unfold mk_grid. intros H B E1 E2. rewrite E1, E2. destruct (Req_EM_T a 0); [easy|]. destruct (Req_EM_T b 0); [easy|].
  repeat match type of H with (if ?c then _ else _) = _ => destruct c; [easy|] end.
  inversion H; subst. reflexivity.
Qed.
Section Counts.
Context (res rs om : R) (nt : option Z) (g : grid).
Hypothesis Hg : mk_grid res rs om nt = Ok g.
Let F := mk_grid_facts _ _ _ _ _ Hg.
Lemma nlat_half : (g_nlat g - 1 = Nat.div (g_nlon g) 2)%nat.
Proof.
  destruct F as [_ _ _ _ _ L4 L3 lo hi lo2 hi2 _].
  assert (Q : 360 / res = 2 * (180 / res)) by (unfold Rdiv; ring).
  assert (A : (2 * (g_nlat g - 1) < g_nlon g + 1)%nat).
  { apply INR_lt. rewrite mult_INR, plus_INR. cbn [INR]. lra. }
  assert (B : (g_nlon g < 2 * (g_nlat g - 1) + 2)%nat).
  { apply INR_lt. rewrite plus_INR, mult_INR. cbn [INR]. lra. }
  pose proof (Nat.div_mod (g_nlon g) 2 ltac:(lia)). pose proof (Nat.mod_upper_bound (g_nlon g) 2 ltac:(lia)). lia.
Qed.
Lemma counts_of : nlon_of res = Z.of_nat (g_nlon g) /\ nlat_of res = Z.of_nat (g_nlat g).
Proof.
  pose proof Hg as H. clear F Hg. revert H. unfold mk_grid. destruct (Req_EM_T res 0); [easy|].
  destruct ((nlon_of res <? 0)%Z || (nlat_of res <? 0)%Z) eqn:Q; [easy|]. apply orb_false_iff in Q as [Q1 Q2].
  apply Z.ltb_ge in Q1, Q2.
  repeat match goal with |- (if ?c then _ else _) = _ -> _ => destruct c; [easy|] end.
  intros H. inversion H; subst. cbn. rewrite !Z2Nat.id by assumption. easy.
Qed.
Lemma respaced_ok : Nat.even (g_nlon g) = true -> mk_grid (360 / INR (g_nlon g)) rs om nt = Ok (respaced g).
Proof.
  intros E. destruct F as [_ _ _ _ _ L4 L3 _ _ _ _ _]. destruct counts_of as [C1 C2].
  assert (P : 0 < INR (g_nlon g)) by (apply lt_0_INR; lia).
  apply (mk_grid_same_counts res _ rs om nt g Hg).
  - apply Rgt_not_eq. apply Rdiv_lt_0_compat; lra.
  - rewrite C1. unfold nlon_of. replace (360 / (360 / INR (g_nlon g))) with (INR (g_nlon g)) by (field; lra).
    rewrite py_int_nonneg by lra. rewrite INR_IZR_INZ. apply Int_part_unique. lra.
  - rewrite C2. unfold nlat_of. pose proof nlat_half as H. apply Nat.even_spec in E as [k E].
    rewrite E, Nat.mul_comm, Nat.div_mul in H by lia.
    replace (180 / (360 / INR (g_nlon g))) with (INR k) by (rewrite E, mult_INR; cbn [INR]; field; rewrite E, mult_INR in P; cbn [INR] in P; lra).
    rewrite py_int_nonneg by apply pos_INR. rewrite INR_IZR_INZ. rewrite (Int_part_unique _ (Z.of_nat k)) by lra. lia.
Qed.
Lemma lon_regular : regular_lon (g_lon g) (360 / INR (g_nlon g)).
Proof.
  destruct F as [_ _ _ _ _ L4 L3 _ _ _ _ _]. assert (P : 0 < INR (g_nlon g)) by (apply lt_0_INR; lia).
  assert (D : 0 < 360 / INR (g_nlon g)) by (apply Rdiv_lt_0_compat; lra).
  assert (Near : forall x y, x = y -> near x y).
  { intros x y ->. unfold near. rewrite Rminus_diag_eq, Rabs_R0 by easy. pose proof (Rabs_pos y). lra. }
  unfold regular_lon, spaced. rewrite lon_length. repeat split; try lia; try exact D.
  - rewrite !lon_nth by lia. cbn [INR]. lra.
  - intros k K. apply Near. rewrite !lon_nth by lia. rewrite S_INR. ring.
  - apply Near. rewrite !lon_nth by lia. rewrite minus_INR by lia. cbn [INR]. field. lra.
Qed.
Lemma lat_steps : spaced (g_lat g) (- (180 / INR (g_nlat g - 1))).
Proof.
  destruct F as [_ _ _ _ _ L4 L3 _ _ _ _ _]. assert (P : 0 < INR (g_nlat g - 1)) by (apply lt_0_INR; lia).
  unfold spaced. rewrite lat_length. repeat split; try lia.
  - rewrite !lat_nth by lia. cbn [INR]. field. lra.
  - intros k K. rewrite !lat_nth by lia. rewrite S_INR. unfold near.
    match goal with |- Rabs ?x <= _ => replace x with 0 by (field; lra) end.
    rewrite Rabs_R0. match goal with |- _ <= _ + _ * Rabs ?y => pose proof (Rabs_pos y) end. lra.
Qed.
Lemma lat_regular : Nat.even (g_nlon g) = true -> regular_lat (g_lat g) (g_nlon g) (360 / INR (g_nlon g)).
Proof.
  intros E. destruct F as [_ _ _ _ _ L4 L3 _ _ _ _ _]. assert (P : 0 < INR (g_nlat g - 1)) by (apply lt_0_INR; lia).
  split; [rewrite lat_length; apply nlat_half|]. exists (- (180 / INR (g_nlat g - 1))). split; [apply lat_steps|].
  assert (D : 0 < 180 / INR (g_nlat g - 1)) by (apply Rdiv_lt_0_compat; lra). split; [lra|].
  assert (Q : 180 / INR (g_nlat g - 1) = 360 / INR (g_nlon g)).
  { pose proof nlat_half as H. apply Nat.even_spec in E as [k E]. rewrite E, Nat.mul_comm, Nat.div_mul in H by lia.
    rewrite H. rewrite E, mult_INR. cbn [INR]. rewrite H in P. field. lra. }
  rewrite Q. unfold near. rewrite Rminus_diag_eq, Rabs_R0 by easy. pose proof (Rabs_pos (- (360 / INR (g_nlon g)))). lra.
Qed.
End Counts.

Section Export.
Context (g : grid) (l : list (state numR)).
Definition gvar (m : state numR -> mat) : xvar :=
  nd_var ["time"; "latitude"; "longitude"] (mkNd [length l; g_nlat g; g_nlon g] (concat (map (fun s => concat (m s)) l))).
Definition export_ds (fs : list (string * (state numR -> mat))) : dataset :=
  mkDs (out_size g (length l) "time") (base_coords g l ++ map (fun f => (fst f, gvar (snd f))) fs).
Definition getter_of (m : state numR -> mat) (s : state numR) : res fvalue := Ok (XArr (grid_array (m s))).
Lemma concat_len nr nc (m : mat) : shaped nr nc m -> length (concat m) = (nr * nc)%nat.
Proof.
  intros [L FA]. subst nr. induction m as [|r m IH]; cbn; [easy|]. inversion FA; subst. rewrite app_length, IH by assumption. reflexivity.
Qed.
Lemma gvar_at m k i j : (0 < g_nlat g)%nat -> Forall (fun s => shaped (g_nlat g) (g_nlon g) (m s)) l -> (k < length l)%nat -> (i < g_nlat g)%nat -> (j < g_nlon g)%nat ->
  forall s, nth_error l k = Some s -> x_at (gvar m) [k; i; j] = @VNum numR (mget (m s) i j).
Proof.
  intros P FA K I J s Hs. unfold gvar. rewrite (nd_var_at _ (length l) [g_nlat g; g_nlon g]).
  - assert (E : nth k (map (fun s => concat (m s)) l) [] = concat (m s)).
    { rewrite (nth_indep _ [] (concat (m s))) by now rewrite map_length.
      rewrite (map_nth (fun s => concat (m s)) l s). now rewrite (nth_error_nth l k s Hs). }
    rewrite E. assert (Sh : shaped (g_nlat g) (g_nlon g) (m s)).
    { rewrite Forall_forall in FA. apply FA. eapply nth_error_In; eauto. }
    f_equal. assert (RM : row_major [g_nlat g; g_nlon g] [i; j] = (i * g_nlon g + j)%nat) by reflexivity. rewrite RM.
    rewrite (nth_concat (m s) (g_nlon g)); [reflexivity|apply Sh|destruct Sh; lia|exact J].
  - apply Forall_forall. intros d Id. apply in_map_iff in Id as (x & <- & Ix). rewrite Forall_forall in FA.
    rewrite (concat_len _ _ _ (FA x Ix)). cbn. lia.
  - now rewrite map_length.
  - repeat constructor; assumption.
Qed.
Lemma as_export fs : l <> [] -> on_first_grid l -> (forall s0, hd_error l = Some s0 -> s_grid s0 = g) -> (0 < g_nlat g)%nat ->
  Forall (fun f => Forall (fun s => shaped (g_nlat g) (g_nlon g) (snd f s)) l
     /\ fst f <> "latitude" /\ fst f <> "longitude" /\ fst f <> "time") fs ->
  as_dataset (map XState l) (map (fun f => (fst f, getter_of (snd f))) fs) "time" None = Ok (export_ds fs).
Proof.
  intros NE OF HG P FA. destruct l as [|s0 l'] eqn:El; [easy|]. rewrite <- El in *. unfold as_dataset.
  assert (M : mk_statelist (E := R) (O := unit) (map XState l) = Ok l) by now apply mk_accepts.
  rewrite M. rewrite El at 1. cbn [map]. cbn [bind].
  assert (G : sl_grid l = Some g) by (rewrite El; cbn; f_equal; apply HG; now rewrite El).
  rewrite G. unfold concat_coord. rewrite String.eqb_refl. cbn [bind]. rewrite app_nil_r. fold (base_coords g l).
  assert (R : res_map (fun f : string * (state numR -> res fvalue) => do (shape, v) <- export_field g l "time" (snd f); Ok (fst f, (shape, v)))
                (map (fun f => (fst f, getter_of (snd f))) fs)
              = Ok (map (fun f => (fst f, ([length l; g_nlat g; g_nlon g], gvar (snd f)))) fs)).
  { clear - FA P NE. induction FA as [|f fs [H _] FA IH]; cbn [map res_map]; [easy|]. cbn [fst snd].
    unfold export_field at 1. rewrite (array_map (getter_of (snd f)) l [g_nlat g; g_nlon g] (fun s => grid_array (snd f s))); [|exact NE|].
    - cbn [bind nd_shape field_dims]. rewrite IH. reflexivity.
    - apply Forall_forall. intros s I. split; [reflexivity|]. rewrite Forall_forall in H. specialize (H s I).
      cbn [grid_array nd_shape]. rewrite (shaped_ncols _ _ _ H P). destruct H as [-> _]. reflexivity. }
  rewrite R. cbn [bind].
  assert (X : existsb (fun f : string * (state numR -> res fvalue) => mem (fst f) (map fst (base_coords g l))) (map (fun f => (fst f, getter_of (snd f))) fs) = false).
  { clear - FA. induction FA as [|f fs (_ & A & B & C) FA IH]; [easy|]. cbn [map existsb]. rewrite IH, orb_false_r.
    cbn. destruct (String.eqb_spec (fst f) "latitude"); [easy|]. destruct (String.eqb_spec (fst f) "longitude"); [easy|].
    destruct (String.eqb_spec (fst f) "time"); easy. }
  rewrite X.
  assert (Y : forallb (fun f : string * (list nat * xvar) => fits (out_size g (length l) "time") (fst (snd f)) (snd (snd f)))
     (map (fun f => (fst f, ([length l; g_nlat g; g_nlon g], gvar (snd f)))) fs) = true).
  { apply forallb_forall. intros f I. apply in_map_iff in I as (f' & <- & _). cbn [fst snd]. unfold fits. apply shape_eqb_spec.
    reflexivity. }
  rewrite Y. rewrite map_map. reflexivity.
Qed.
End Export.

(** *** reading the exported dataset *)
Inductive kind := KWind (mu mv : state numR -> mat) | KVo (m : state numR -> mat) | KAvo (m : state numR -> mat).
Definition kind_fields (k : kind) : list (state numR -> mat) :=
  match k with KWind mu mv => [mu; mv] | KVo m => [m] | KAvo m => [m] end.
Definition rebuilt (T : sphfam) (g : grid) (k : kind) (s : state numR) : res (state numR) :=
  match k with
  | KWind mu mv => state_from_wind T g (s_time s) (mu s) (mv s)
  | KVo m => state_from_vorticity T g (s_time s) (m s)
  | KAvo m => state_init T g (s_time s) (Some (m s)) None
  end.
Section Back.
Context (T : sphfam) (res rs om : R) (nt : option Z) (g : grid) (tf : lab) (l : list (state numR)) (fs : list (string * (state numR -> mat))).
Hypothesis Hg : mk_grid res rs om nt = Ok g.
Hypothesis NE : l <> [].
Hypothesis ND : NoDup (map fst fs).
Hypothesis NC : forall n, In n (map fst fs) -> n <> "latitude" /\ n <> "longitude" /\ n <> "time".
Let D := export_ds g l fs.
Let F := mk_grid_facts _ _ _ _ _ Hg.

Lemma D_vars n v : In (n, v) (ds_vars D) <->
  (n, v) = ("latitude", vec_coord "latitude" (map (@VNum numR) (g_lat g)))
  \/ (n, v) = ("longitude", vec_coord "longitude" (map (@VNum numR) (g_lon g)))
  \/ (n, v) = ("time", vec_coord "time" (map s_time l))
  \/ exists m, In (n, m) fs /\ v = gvar g l m.
Proof.
  unfold D, export_ds; cbn [ds_vars]. rewrite in_app_iff, in_map_iff. unfold base_coords. cbn [In]. split.
  - intros [[E|[E|[E|[]]]]|((f & m) & E & I)]; auto. inversion E; subst. right; right; right. now exists m.
  - intros [E|[E|[E|(m & I & ->)]]]; auto. right. now exists (n, m).
Qed.
Lemma D_names : map fst (ds_vars D) = ["latitude"; "longitude"; "time"] ++ map fst fs.
Proof. unfold D, export_ds; cbn [ds_vars]. rewrite map_app, map_map. reflexivity. Qed.
Lemma D_dim d : is_dimension D d -> d = "latitude" \/ d = "longitude" \/ d = "time".
Proof.
  intros (n & v & I & J). apply D_vars in I as [E|[E|[E|(m & I & ->)]]]; [inversion E; subst..|]; cbn in J; intuition congruence.
Qed.
Lemma D_valid : valid_ds D.
Proof.
  split.
  - rewrite D_names. assert (X : forall a, In a ["latitude"; "longitude"; "time"] -> ~ In a (map fst fs)).
    { intros a A B. destruct (NC a B) as (? & ? & ?). cbn in A. intuition congruence. }
    cbn [app]. repeat constructor; cbn; try (intros [?|[?|?]]); try (intros [?|?]); try easy; try (eapply X; [|eassumption]; cbn; auto).
    intros B. apply (X "time"); cbn; auto.
  - intros n v I. split.
    + apply D_vars in I as [E|[E|[E|(m & I & ->)]]]; [inversion E; subst; cbn; constructor; [easy|constructor]..|].
      cbn. repeat constructor; cbn; intuition congruence.
    + intros Dn. apply D_dim in Dn. apply D_vars in I as [E|[E|[E|(m & I & ->)]]]; [inversion E; subst; easy..|].
      apply (in_map fst) in I. cbn in I. destruct (NC n I) as (? & ? & ?). intuition congruence.
Qed.
Lemma D_nil : NoDup (map fst (@nil (string * option string))). Proof. constructor. Qed.
Definition extra_dims : list string := if Nat.eqb (length l) 1 then [] else ["time"].
Lemma nlat_not1 : Nat.eqb (g_nlat g) 1 = false /\ Nat.eqb (g_nlon g) 1 = false.
Proof. destruct F as [_ _ _ _ _ L4 L3 _ _ _ _ _]. split; apply Nat.eqb_neq; lia. Qed.
Lemma long_gvar m : long_dims D (gvar g l m) = extra_dims ++ ["latitude"; "longitude"].
Proof.
  destruct nlat_not1 as [A B]. unfold long_dims, gvar, extra_dims. cbn [nd_var x_dims filter]. unfold D, export_ds; cbn [ds_size].
  change (out_size g (length l) "time" "time") with (length l). change (out_size g (length l) "time" "latitude") with (g_nlat g).
  change (out_size g (length l) "time" "longitude") with (g_nlon g). rewrite A, B. cbn [negb]. now destruct (Nat.eqb (length l) 1).
Qed.
Lemma long_time : long_dims D (vec_coord "time" (map s_time l)) = extra_dims.
Proof.
  unfold long_dims, vec_coord, extra_dims. cbn [x_dims filter]. unfold D, export_ds; cbn [ds_size].
  change (out_size g (length l) "time" "time") with (length l). now destruct (Nat.eqb (length l) 1).
Qed.
Lemma D_pick ref n before after : documented ref = before ++ n :: after -> In n (map fst (ds_vars D)) ->
  (forall m, In m before -> ~ In m (map fst (ds_vars D))) -> picks D [] ref (Some n).
Proof. intros E I B. apply (picks_found _ _ _ before n after); try easy. Qed.
Lemma D_lon : coordinate D "longitude" (g_lon g).
Proof.
  exists (vec_coord "longitude" (map (@VNum numR) (g_lon g))), "longitude". split; [|split; [|split; [|split]]].
  - constructor. apply D_vars. auto.
  - reflexivity.
  - unfold long_dims. cbn [vec_coord x_dims filter]. unfold D, export_ds; cbn [ds_size].
    change (out_size g (length l) "time" "longitude") with (g_nlon g). now rewrite (proj2 nlat_not1).
  - rewrite lon_length. reflexivity.
  - intros k K. change (ds_size D "longitude") with (g_nlon g) in K. cbn -[nth g_lon].
    rewrite (nth_map_lt _ _ _ 0) by now rewrite lon_length. reflexivity.
Qed.
Lemma D_lat : coordinate D "latitude" (g_lat g).
Proof.
  exists (vec_coord "latitude" (map (@VNum numR) (g_lat g))), "latitude". split; [|split; [|split; [|split]]].
  - constructor. apply D_vars. auto.
  - reflexivity.
  - unfold long_dims. cbn [vec_coord x_dims filter]. unfold D, export_ds; cbn [ds_size].
    change (out_size g (length l) "time" "latitude") with (g_nlat g). now rewrite (proj1 nlat_not1).
  - rewrite lat_length. reflexivity.
  - intros k K. change (ds_size D "latitude") with (g_nlat g) in K. cbn -[nth g_lat].
    rewrite (nth_map_lt _ _ _ 0) by now rewrite lat_length. reflexivity.
Qed.
Definition kind_source (k : kind) : source :=
  match k with KWind mu mv => FromWind (gvar g l mu) (gvar g l mv) | KVo m => FromVo (gvar g l m) | KAvo m => FromAvo (gvar g l m) end.
Lemma kind_dims k : data_dims D (kind_source k) extra_dims "latitude" "longitude" /\ same_dims D (kind_source k).
Proof. unfold data_dims. destruct k; cbn [kind_source source_data same_dims]; rewrite !long_gvar; easy. Qed.

Hypothesis EV : Nat.even (g_nlon g) = true.
Lemma D_picks_lon : picks D [] "lon" (Some "longitude").
Proof. apply (D_pick "lon" "longitude" [] ["lon"]); [reflexivity| |easy]. rewrite D_names. cbn; auto. Qed.
Lemma D_picks_lat : picks D [] "lat" (Some "latitude").
Proof. apply (D_pick "lat" "latitude" [] ["lat"]); [reflexivity| |easy]. rewrite D_names. cbn; auto. Qed.
Lemma D_picks_time : picks D [] "time" (Some "time").
Proof. apply (D_pick "time" "time" [] []); [reflexivity| |easy]. rewrite D_names. cbn; auto. Qed.
Lemma D_accepted k : origin D [] (kind_source k) ->
  accepted D [] rs om nt "longitude" "latitude" (g_lon g) (g_lat g) (360 / INR (g_nlon g)) (respaced g) (kind_source k) extra_dims.
Proof.
  intros O. destruct (kind_dims k) as [K1 K2]. unfold accepted. rewrite lon_length.
  split; [exact D_picks_lon|]. split; [exact D_picks_lat|]. split; [exact D_lon|]. split; [exact D_lat|].
  split; [exact (lon_regular _ _ _ _ _ Hg)|]. split; [exact (lat_regular _ _ _ _ _ Hg EV)|].
  split; [exact (respaced_ok _ _ _ _ _ Hg EV)|]. auto.
Qed.
Lemma D_time_coord dims v : time_coord D [] dims v -> v = vec_coord "time" (map s_time l) /\ time_coord D [] extra_dims v.
Proof.
  intros (n & P & I & C & Inc). assert (n = "time") by (pose proof (picks_fun _ _ _ _ _ D_nil P D_picks_time); congruence). subst n.
  assert (v = vec_coord "time" (map s_time l)).
  { apply (In_assoc _ _ _ (proj1 D_valid)) in I.
    assert (J : In ("time", vec_coord "time" (map s_time l)) (ds_vars D)) by (apply D_vars; auto).
    apply (In_assoc _ _ _ (proj1 D_valid)) in J. congruence. }
  subst v. split; [easy|]. exists "time". split; [exact P|]. split; [exact I|]. split; [exact C|]. rewrite long_time. apply incl_refl.
Qed.
Lemma D_sizes : map (ds_size D) extra_dims = if Nat.eqb (length l) 1 then [] else [length l].
Proof. unfold extra_dims. now destruct (Nat.eqb (length l) 1). Qed.

Lemma D_back k : origin D [] (kind_source k) -> NoDup (map s_time l) ->
  Forall (fun m => Forall (fun s => shaped (g_nlat g) (g_nlon g) (m s)) l) (kind_fields k) ->
  exists r, from_dataset T D [] rs om nt tf = Ok r /\ Forall2 (fun s s' => rebuilt T (respaced g) k s = Ok s') l r.
Proof.
  intros O NT Sh. pose proof (D_accepted k O) as A.
  destruct (from_complete T D [] rs om nt tf D_valid D_nil _ _ _ _ _ _ _ _ A) as (r & R).
  - reflexivity.
  - reflexivity.
  - unfold extra_dims. destruct (Nat.eqb (length l) 1) eqn:E1; [constructor|]. constructor; [|constructor].
    intros x i j X I J E. change (ds_size D "time") with (length l) in I, J.
    assert (X2 : named D "time" (vec_coord "time" (map s_time l))) by (constructor; apply D_vars; auto).
    rewrite (named_fun _ _ _ _ D_valid X X2) in E. cbn [vec_coord x_at hd] in E.
    refine (proj1 (NoDup_nth (map s_time l) (@VNum numR 0)) NT i j _ _ E); now rewrite map_length.
  - destruct k; cbn [kind_source wind_coords]; try easy. apply Forall_forall. intros d I. rewrite D_names.
    unfold extra_dims in I. destruct (Nat.eqb (length l) 1); [destruct I|]. destruct I as [<-|[]]. cbn; auto.
  - intros v Hv. apply D_time_coord in Hv. tauto.
  - exists r. split; [exact R|]. destruct (from_states T D [] rs om nt tf _ _ _ _ _ _ _ _ r D_valid D_nil A R) as [L S].
    assert (Lr : length r = length l).
    { rewrite L, D_sizes. destruct (Nat.eqb_spec (length l) 1) as [->|]; cbn; lia. }
    assert (Each : forall i s, nth_error l i = Some s -> exists s', nth_error r i = Some s' /\ rebuilt T (respaced g) k s = Ok s').
    { intros i s Hi. assert (Li : (i < length l)%nat) by (apply nth_error_Some; congruence).
      set (idx := if Nat.eqb (length l) 1 then [] else [i]).
      assert (IR : in_range idx (map (ds_size D) extra_dims)).
      { rewrite D_sizes. unfold idx. destruct (Nat.eqb (length l) 1); repeat constructor. exact Li. }
      destruct (S idx IR) as (s' & t & S1 & S2 & S3 & _).
      assert (RM : row_major (map (ds_size D) extra_dims) idx = i).
      { rewrite D_sizes. unfold idx. destruct (Nat.eqb_spec (length l) 1); cbn; lia. }
      rewrite RM in S1. exists s'. split; [exact S1|].
      assert (Pos : forall a b, place (extra_dims ++ ["latitude"; "longitude"]) (idx ++ [a; b]) "time" = i
                  /\ place (extra_dims ++ ["latitude"; "longitude"]) (idx ++ [a; b]) "latitude" = a
                  /\ place (extra_dims ++ ["latitude"; "longitude"]) (idx ++ [a; b]) "longitude" = b).
      { intros a b. unfold extra_dims, idx. destruct (Nat.eqb_spec (length l) 1); cbn; repeat split; lia. }
      assert (Pt : place extra_dims idx "time" = i).
      { unfold extra_dims, idx. destruct (Nat.eqb_spec (length l) 1); cbn; lia. }
      assert (Time : t = s_time s).
      { destruct S2 as [(v & Hv & ->)|[NoT _]].
        - destruct (D_time_coord _ _ Hv) as [-> _]. unfold at_pos. cbn [vec_coord x_dims x_at map hd]. rewrite Pt.
          rewrite (nth_indep _ _ (s_time s)) by (rewrite map_length; exact Li).
          rewrite map_nth. now rewrite (nth_error_nth l i s Hi).
        - exfalso. apply (NoT (vec_coord "time" (map s_time l))). exists "time". split; [exact D_picks_time|].
          split; [apply D_vars; auto|]. split; [reflexivity|]. rewrite long_time. apply incl_appl, incl_refl. }
      subst t.
      assert (Slab : forall m, Forall (fun s => shaped (g_nlat g) (g_nlon g) (m s)) l ->
         field_slab (respaced g) (gvar g l m) extra_dims idx "latitude" "longitude" = m s).
      { intros m Hm. assert (Hs : shaped (g_nlat g) (g_nlon g) (m s)).
        { rewrite Forall_forall in Hm. apply Hm. eapply nth_error_In; eauto. }
        rewrite (mat_of_mget _ _ _ Hs). unfold field_slab. cbn [respaced g_nlat g_nlon]. apply mat_of_ext. intros a b Ha Hb.
        unfold at_pos, slab_pos. change (x_dims (gvar g l m)) with ["time"; "latitude"; "longitude"]. cbn [map].
        destruct (Pos a b) as (-> & -> & ->).
        rewrite (gvar_at g l m i a b ltac:(lia) Hm Li Ha Hb s Hi). cbn [lab_num]. reflexivity. }
      destruct k as [mu mv|m|m]; cbn [kind_source slab_state rebuilt kind_fields] in S3, Sh |- *.
      - pose proof (Forall_inv Sh) as H1. pose proof (Forall_inv (Forall_inv_tail Sh)) as H3. now rewrite (Slab mu H1), (Slab mv H3) in S3.
      - pose proof (Forall_inv Sh) as H1. now rewrite (Slab m H1) in S3.
      - pose proof (Forall_inv Sh) as H1. now rewrite (Slab m H1) in S3. }
    clear - Lr Each. revert r Lr Each. induction l as [|a m IH]; intros [|b r] Lr Each; cbn in Lr; try lia; constructor.
    + destruct (Each 0%nat a eq_refl) as (s' & E & H). cbn in E. congruence.
    + apply IH; [lia|]. intros i s Hi. apply (Each (S i) s Hi).
Qed.
End Back.

(** *** the round trip *)
Lemma rebuilt_respaced T g k s : rebuilt T (respaced g) k s = do x <- rebuilt T g k s; Ok (mkState (respaced g) (s_time x) (s_pvs x)).
Proof. destruct k; reflexivity. Qed.
Lemma respaced_id res rs om nt g : mk_grid res rs om nt = Ok g -> res * INR (g_nlon g) = 360 -> respaced g = g.
Proof.
  intros H E. destruct (mk_grid_facts _ _ _ _ _ H) as [A _ _ _ _ L4 _ _ _ _ _ _]. unfold respaced.
  assert (P : 0 < INR (g_nlon g)) by (apply lt_0_INR; lia).
  replace (360 / INR (g_nlon g)) with (g_res g) by (rewrite A, <- E; field; lra). now destruct g.
Qed.
Lemma Forall2_moved T g k l r : Forall (fun s => rebuilt T g k s = Ok (mkState g (s_time s) (s_pvs s))) l ->
  Forall2 (fun s s' => rebuilt T (respaced g) k s = Ok s') l r -> r = map (moved g) l.
Proof.
  intros A. revert r. induction A as [|s l H A IH]; intros r B; inversion B as [|? s' ? r' H1 H2]; subst; [easy|].
  cbn [map]. f_equal; [|now apply IH]. rewrite rebuilt_respaced, H in H1. cbn [bind] in H1. apply Ok_inj in H1. now subst.
Qed.
Lemma hd_In {A} (l : list A) a : hd_error l = Some a -> In a l.
Proof. destruct l; cbn; [easy|]. left. congruence. Qed.
Section Round.
Context (T : sphfam) (res rs om : R) (nt : option Z) (g : grid) (tf : lab) (l : list (state numR)).
Hypothesis Hg : mk_grid res rs om nt = Ok g.
Hypothesis EX : exact_on T g.
Hypothesis NE : l <> [].
Hypothesis OG : Forall (on_grid T g) l.
Hypothesis EV : Nat.even (g_nlon g) = true.
Hypothesis NT : NoDup (map s_time l).
Lemma first_grid : on_first_grid l /\ (forall s0, hd_error l = Some s0 -> s_grid s0 = g).
Proof.
  split.
  - intros s0 H s I. rewrite Forall_forall in OG. destruct (OG s I) as [E _].
    pose proof (hd_In _ _ H) as J. destruct (OG s0 J) as [E0 _]. rewrite E, E0. apply grid_eqb_refl.
  - intros s0 H. pose proof (hd_In _ _ H) as J.
    rewrite Forall_forall in OG. now destruct (OG s0 J).
Qed.
Lemma round fs k : NoDup (map fst fs) -> 
  Forall (fun f => Forall (fun s => shaped (g_nlat g) (g_nlon g) (snd f s)) l /\ fst f <> "latitude" /\ fst f <> "longitude" /\ fst f <> "time") fs ->
  Forall (fun m => In m (map snd fs)) (kind_fields k) ->
  origin (export_ds g l fs) [] (kind_source g l k) ->
  exists ds, as_dataset (map XState l) (map (fun f => (fst f, getter_of (snd f))) fs) "time" None = Ok ds
    /\ exists r, from_dataset T ds [] rs om nt tf = Ok r /\ Forall2 (fun s s' => rebuilt T (respaced g) k s = Ok s') l r.
Proof.
  intros ND FA KF O. exists (export_ds g l fs). split.
  - destruct first_grid as [A B]. apply as_export; try easy. destruct (mk_grid_facts _ _ _ _ _ Hg) as [_ _ _ _ _ _ L3 _ _ _ _ _]. lia.
  - apply (D_back T res rs om nt g tf l fs Hg); try easy.
    + intros n I. apply in_map_iff in I as (f & <- & I). rewrite Forall_forall in FA. now apply FA.
    + apply Forall_forall. intros m I. rewrite Forall_forall in KF. specialize (KF m I). apply in_map_iff in KF as (f & <- & J).
      rewrite Forall_forall in FA. now apply FA.
Qed.

Definition wind_fields : list (string * (state numR -> mat)) := [("u", s_u T); ("v", s_v T)].
Lemma wind_shapes : Forall (fun f => Forall (fun s => shaped (g_nlat g) (g_nlon g) (snd f s)) l
    /\ fst f <> "latitude" /\ fst f <> "longitude" /\ fst f <> "time") wind_fields.
Proof.
  repeat constructor; try easy; cbn [snd]; (eapply Forall_impl; [|exact OG]); intros s Hs; unfold s_u, s_v; rewrite (uv_W T g EX s Hs); apply W_shape; auto.
Qed.
Lemma wind_origin : origin (export_ds g l wind_fields) [] (kind_source g l (KWind (s_u T) (s_v T))).
Proof.
  apply (origin_wind _ _ "u" "v").
  - apply (picks_found _ _ _ [] "u" ["ugrd"; "eastward_wind"]); try easy. cbn; auto.
  - apply (picks_found _ _ _ [] "v" ["vgrd"; "northward_wind"]); try easy. cbn; auto 10.
  - apply named_var, D_vars. right; right; right. exists (s_u T). split; [left|]; reflexivity.
  - apply named_var, D_vars. right; right; right. exists (s_v T). split; [right; left|]; reflexivity.
Qed.
Lemma round_wind : exists ds r, as_dataset (map XState l) [("u", get_u T); ("v", get_v T)] "time" None = Ok ds
  /\ from_dataset T ds [] rs om nt tf = Ok r /\ Forall2 (fun s s' => rebuilt T (respaced g) (KWind (s_u T) (s_v T)) s = Ok s') l r.
Proof.
  destruct (round wind_fields (KWind (s_u T) (s_v T))) as (ds & A & r & B & C).
  - repeat constructor; cbn; intuition congruence.
  - exact wind_shapes.
  - apply Forall_forall. intros m I. exact I.
  - exact wind_origin.
  - exists ds, r. auto.
Qed.
Definition pv_fields : list (string * (state numR -> mat)) := [("pv", s_pv T)].
Lemma pv_shapes : Forall (fun f => Forall (fun s => shaped (g_nlat g) (g_nlon g) (snd f s)) l
    /\ fst f <> "latitude" /\ fst f <> "longitude" /\ fst f <> "time") pv_fields.
Proof. repeat constructor; try easy; cbn [snd]. eapply Forall_impl; [|exact OG]. intros s Hs. now apply (pv_shape T g EX). Qed.
Lemma round_pv : exists ds, as_dataset (map XState l) [("pv", get_pv T)] "time" None = Ok ds
  /\ from_dataset T ds [] rs om nt tf = Ok (map (moved g) l).
Proof.
  destruct (round pv_fields (KAvo (s_pv T))) as (ds & A & r & B & C).
  - repeat constructor; cbn; intuition congruence.
  - exact pv_shapes.
  - apply Forall_forall. intros m I. exact I.
  - assert (X : forall ref, In ref ["u"; "v"; "vo"] -> picks (export_ds g l pv_fields) [] ref None).
    { intros ref I. apply picks_nothing; [easy|]. intros m M. cbn in I.
      destruct I as [<-|[<-|[<-|[]]]]; cbn in M; cbn; intuition congruence. }
    apply (origin_avo _ _ "pv"); [left; apply X; cbn; auto|apply X; cbn; auto| |apply named_var, D_vars; right; right; right; exists (s_pv T); split; [left|]; reflexivity].
    apply (picks_found _ _ _ ["avo"; "absv"; "absolute_vorticity"] "pv" []); try easy; [cbn; auto|].
    intros m M. cbn in M. cbn. intuition congruence.
  - exists ds. split; [exact A|]. rewrite B. f_equal. apply (Forall2_moved T g (KAvo (s_pv T))); [|exact C].
    eapply Forall_impl; [|exact OG]. intros s Hs. cbn [rebuilt]. now apply from_pv.
Qed.
End Round.

(** *** where it fails *)
Section Fails.
Context (T : sphfam) (res rs om : R) (nt : option Z) (g : grid) (tf : lab) (l : list (state numR)).
Hypothesis Hg : mk_grid res rs om nt = Ok g.
Hypothesis NE : l <> [].
Hypothesis OG : Forall (fun s => s_grid s = g /\ shaped (g_nlat g) (g_nlon g) (s_u T s) /\ shaped (g_nlat g) (g_nlon g) (s_v T s)) l.
Let D := export_ds g l (wind_fields T).
Lemma wind_export : as_dataset (map XState l) [("u", get_u T); ("v", get_v T)] "time" None = Ok D.
Proof.
  rewrite Forall_forall in OG. apply (as_export g l (wind_fields T)); try easy.
  - intros s0 H s I. destruct (OG s I) as [E _]. destruct (OG s0 (hd_In _ _ H)) as [E0 _]. rewrite E, E0. apply grid_eqb_refl.
  - intros s0 H. now destruct (OG s0 (hd_In _ _ H)).
  - destruct (mk_grid_facts _ _ _ _ _ Hg) as [_ _ _ _ _ _ L3 _ _ _ _ _]. lia.
  - constructor; [|constructor; [|constructor]]; cbn [fst snd]; (split; [|easy]); apply Forall_forall; intros s I; now apply OG.
Qed.
Lemma wind_names : NoDup (map fst (wind_fields T)) /\ forall n, In n (map fst (wind_fields T)) -> n <> "latitude" /\ n <> "longitude" /\ n <> "time".
Proof. split; [repeat constructor; cbn; intuition congruence|]. intros n I. cbn in I. intuition congruence. Qed.
Lemma equal_times r : Nat.even (g_nlon g) = true -> ~ NoDup (map s_time l) -> from_dataset T D [] rs om nt tf <> Ok r.
Proof.
  intros EV ND H. destruct wind_names as [W1 W2]. pose proof (wind_origin T g l) as O.
  pose proof (D_accepted res rs om nt g l (wind_fields T) Hg EV (KWind (s_u T) (s_v T)) O) as A.
  pose proof (D_valid g l (wind_fields T) W1 W2) as V.
  pose proof (from_states T D [] rs om nt tf _ _ _ _ _ _ _ _ r V D_nil A H) as S.
  destruct (Nat.eq_dec (length l) 1) as [E1|E1].
  { apply ND. destruct l as [|a [|b m]]; cbn in E1; try lia. repeat constructor. easy. }
  assert (EX2 : extra_dims l = ["time"]) by (unfold extra_dims; destruct (Nat.eqb_spec (length l) 1); easy).
  rewrite EX2 in S.
  assert (TD : is_dimension D "time").
  { exists "time", (vec_coord "time" (map s_time l)). split; [apply D_vars; auto|]. cbn; auto. }
  assert (U : Forall (distinct_labels D) ["time"]).
  { apply (states_distinct T D [] tf _ _ _ _ _ r V S).
    - intros ->. destruct S as [L _]. cbn in L. change (ds_size D "time") with (length l) in L. destruct l; [easy|]. cbn in L. lia.
    - intros d [<-|[]]. split; [exact TD|]. exact E1. }
  apply ND. apply (NoDup_nth (map s_time l) (@VNum numR 0)). intros i j I J E. rewrite map_length in I, J.
  pose proof (Forall_inv U) as Q. apply (Q (vec_coord "time" (map s_time l)) i j); try easy.
  constructor. apply D_vars. auto.
Qed.
Lemma odd_longitudes : Nat.even (g_nlon g) = false -> INR (g_nlon g) <= 50000 -> from_dataset T D [] rs om nt tf = Err AssertionError.
Proof.
  intros OD SM. destruct wind_names as [W1 W2]. pose proof (D_valid g l (wind_fields T) W1 W2) as V.
  assert (E1 : check_lon (squeeze D) (var_map (squeeze D) [] "lon") = Ok ("longitude", g_lon g, 360 / INR (g_nlon g))).
  { apply (lon_stage D [] V D_nil). split; [apply D_picks_lon|]. split; [apply (D_lon res rs om nt); exact Hg|]. exact (lon_regular _ _ _ _ _ Hg). }
  assert (P2 : var_map (squeeze D) [] "lat" = Some "latitude") by (apply (vm D [] D_nil); apply D_picks_lat).
  destruct (check_lat_coord D "latitude" (g_lat g) (g_lon g) (360 / INR (g_nlon g)) V (D_lat res rs om nt g l (wind_fields T) Hg)) as [E2 L1].
  rewrite lon_length in E2.
  assert (NR : ~ regular_lat (g_lat g) (g_nlon g) (360 / INR (g_nlon g))).
  { intros (Q & e & S & E & N). destruct (mk_grid_facts _ _ _ _ _ Hg) as [_ _ _ _ _ L4 L3 _ _ _ _ _].
    destruct S as (_ & S & _). rewrite !lat_nth in S by lia. cbn [INR] in S.
    pose proof (nlat_half _ _ _ _ _ Hg) as H. set (k := (g_nlat g - 1)%nat) in *.
    assert (O2 : g_nlon g = (2 * k + 1)%nat).
    { rewrite <- Nat.negb_odd in OD. apply negb_false_iff, Nat.odd_spec in OD as [m M]. rewrite M in H.
      replace (2 * m + 1)%nat with (1 + m * 2)%nat in H by lia. rewrite Nat.div_add in H by lia. cbn in H. lia. }
    assert (K1 : 1 <= INR k). { assert (X : (1 <= k)%nat) by lia. apply le_INR in X. exact X. }
    assert (K2 : INR k <= 25000). { rewrite O2, plus_INR, mult_INR in SM. cbn [INR] in SM. lra. }
    rewrite O2, plus_INR, mult_INR in N. cbn [INR] in N. subst e. unfold near in N. set (x := INR k) in *.
    assert (B : 0 < 360 / ((1 + 1) * x + 1)) by (apply Rdiv_lt_0_compat; lra).
    rewrite Rabs_Ropp, (Rabs_pos_eq (360 / _)) in N by lra.
    replace (90 + 1 * (-180 / x) - (90 + 0 * (-180 / x)) - - (360 / ((1 + 1) * x + 1))) with (- (180 / (x * (2 * x + 1)))) in N by (field; lra).
    assert (B2 : 0 < 180 / (x * (2 * x + 1))) by (apply Rdiv_lt_0_compat; [lra|apply Rmult_lt_0_compat; lra]).
    rewrite Rabs_Ropp, Rabs_pos_eq in N by lra.
    assert (N2 : 180 <= / 100000000 * (x * (2 * x + 1)) + / 100000 * (360 * x)).
    { apply (Rmult_le_compat_r (x * (2 * x + 1))) in N; [|apply Rmult_le_pos; lra].
      replace (180 / (x * (2 * x + 1)) * (x * (2 * x + 1))) with 180 in N by (field; lra).
      replace ((/ 100000000 + / 100000 * (360 / ((1 + 1) * x + 1))) * (x * (2 * x + 1)))
        with (/ 100000000 * (x * (2 * x + 1)) + / 100000 * (360 * x)) in N by (field; lra). exact N. }
    assert (x * (2 * x + 1) <= 25000 * (2 * 25000 + 1)) by (apply Rmult_le_compat; lra). lra. }
  unfold from_dataset. cbv zeta. rewrite E1. cbn [bind]. rewrite P2, E2.
  destruct (lat_checks "latitude" (g_lat g) (g_nlon g) (360 / INR (g_nlon g))) as [[n x]|e] eqn:Q.
  - apply lat_checks_ok in Q as (_ & -> & R). destruct (NR R).
  - cbn [bind]. destruct (lat_checks_err _ _ _ _ _ L1 Q) as [-> _]. reflexivity.
Qed.
End Fails.
