(** Facts about the results of from_dataset, and a family of small datasets. *)
From Coq Require Export String.
From Verif Require Import Spec_IO Proofs_Base Proofs_Grid Proofs_StateList Proofs_State Proofs_IO Proofs_From.
From Coq Require Import List Lia Lra.
Import ListNotations.
Local Open Scope string_scope.
Local Open Scope list_scope.

(** every position is the row-major number of a multi-index *)
Lemma unflatten sizes k : (k < size_of sizes)%nat -> exists idx, in_range idx sizes /\ row_major sizes idx = k.
Proof.
  revert k. induction sizes as [|n sizes IH]; intros k K.
  - exists []. split; [constructor|]. cbn in *. lia.
  - change (size_of (n :: sizes)) with (n * size_of sizes)%nat in K. set (m := size_of sizes) in *.
    assert (M : m <> 0%nat) by lia.
    destruct (IH (k mod m)%nat) as (idx & R & E); [now apply Nat.mod_upper_bound|].
    exists ((k / m)%nat :: idx). split.
    + constructor; [|exact R]. apply Nat.div_lt_upper_bound; lia.
    + rewrite row_cons by now apply range_length in R. fold m. rewrite E. pose proof (Nat.div_mod k m M). lia.
Qed.
Lemma slab_state_grid T g src extra idx latn lonn t s : slab_state T g src extra idx latn lonn t = Ok s -> s_grid s = g /\ s_time s = t.
Proof. destruct src; cbn; intros H; apply Ok_inj in H; now subst. Qed.
Lemma coord_len ds n x : valid_ds ds -> is_dimension ds n -> coordinate ds n x -> length x = ds_size ds n.
Proof.
  intros V D (v & d & N & C & L & Lx & _). rewrite Lx. f_equal. destruct N as [v I|A B E].
  - destruct (proj2 V _ _ I) as [_ H]. destruct (H D) as [_ Q]. unfold long_dims in L. rewrite Q in L. cbn in L.
    destruct (negb _); congruence.
  - unfold long_dims in L. cbn in L. destruct (negb _); congruence.
Qed.
Lemma states_In T ds names tf g src extra latn lonn r s : the_states T ds names tf g src extra latn lonn r -> In s r ->
  exists idx t, in_range idx (map (ds_size ds) extra) /\ slab_time ds names extra idx latn lonn tf t /\ slab_state T g src extra idx latn lonn t = Ok s
    /\ s_grid s = g /\ s_time s = t /\ ds_size ds latn = g_nlat g /\ ds_size ds lonn = g_nlon g
    /\ wind_coords ds extra src.
Proof.
  intros [L H] I. apply In_nth_error in I as (k & K). assert (Kl : (k < length r)%nat) by (apply nth_error_Some; congruence).
  rewrite L in Kl. destruct (unflatten _ _ Kl) as (idx & R & E). destruct (H idx R) as (s' & t & N & A & B & C & D1 & D2 & _).
  rewrite E in N. assert (s' = s) by congruence. subst s'. exists idx, t. destruct (slab_state_grid _ _ _ _ _ _ _ _ _ B). auto 10.
Qed.
(** no selection succeeds twice: the labels are different *)
Lemma sel_all ls : Forall (fun x : list lab => x <> []) ls ->
  (forall idx, in_range idx (map (@length lab) ls) -> exists j, sel_indices ls (pick (@VNum numR 0) ls idx) = Ok j) -> Forall unique_labels ls.
Proof.
  intros NE. induction NE as [|xs ls X NE IH]; intros H; constructor.
  - intros i j I J E. destruct (Nat.eq_dec i j) as [|Q]; [easy|]. exfalso.
    assert (R : in_range (i :: map (fun _ => 0%nat) ls) (map (@length lab) (xs :: ls))).
    { constructor; [exact I|]. clear - NE. induction NE as [|y ls Y NE IH]; cbn; constructor; [|exact IH].
      destruct y; [easy|]. cbn. lia. }
    destruct (H _ R) as (k & K). cbn [pick sel_indices] in K.
    rewrite (sel_index_twice xs i j I J) in K; [easy|congruence|congruence].
  - apply IH. intros idx R. destruct xs as [|x xs]; [easy|].
    assert (R' : in_range (0%nat :: idx) (map (@length lab) ((x :: xs) :: ls))) by (constructor; [cbn; lia|exact R]).
    destruct (H _ R') as (k & K). cbn [pick sel_indices] in K. destruct (sel_index _ _); [|easy]. cbn [bind] in K.
    destruct (sel_indices _ _) as [j|]; [|easy]. now exists j.
Qed.
Lemma states_distinct T ds names tf g src extra latn lonn r : valid_ds ds -> the_states T ds names tf g src extra latn lonn r -> r <> [] ->
  (forall d, In d extra -> is_dimension ds d /\ ds_size ds d <> 1%nat) -> Forall (distinct_labels ds) extra.
Proof.
  intros V [L H] NE D. apply Forall_forall. intros d I. destruct (D d I) as [D1 D2]. apply (distinct_unique ds V d D1 D2).
  assert (P : Forall (fun x : list lab => x <> []) (map (dim_labels (squeeze ds)) extra)).
  { assert (Q : size_of (map (ds_size ds) extra) <> 0%nat) by (destruct r; [easy|cbn in L; lia]).
    clear - Q. induction extra as [|e extra IH]; cbn [map]; constructor.
    - intros E. apply (f_equal (@length lab)) in E. rewrite labels_length in E. cbn in E. apply Q.
      change (ds_size ds e * size_of (map (ds_size ds) extra) = 0)%nat. now rewrite E.
    - apply IH. change (ds_size ds e * size_of (map (ds_size ds) extra) <> 0)%nat in Q. lia. }
  assert (U : Forall unique_labels (map (dim_labels (squeeze ds)) extra)).
  { apply (sel_all _ P). intros idx R. rewrite labels_lengths in R. destruct (H idx R) as (s & t & _ & _ & _ & _ & _ & _ & S). eauto. }
  rewrite Forall_forall in U. apply U. now apply in_map.
Qed.

(** *** lat-lon fields without other dimensions *)
Definition plain (lon lat : vec) (f : nat -> nat -> R) : dataset :=
  mkDs (fun d => if String.eqb d "longitude" then length lon else if String.eqb d "latitude" then length lat else 0%nat)
    [("longitude", vec_coord "longitude" (map (@VNum numR) lon));
     ("latitude", vec_coord "latitude" (map (@VNum numR) lat));
     ("pv", mkVar false ["latitude"; "longitude"] (fun idx => @VNum numR (f (nth 0 idx 0%nat) (nth 1 idx 0%nat))))].
Section Plain.
Context (lon lat : vec) (f : nat -> nat -> R).
Let D := plain lon lat f.
Lemma plain_valid : valid_ds D.
Proof.
  split; [cbn; repeat constructor; cbn; intuition congruence|]. intros n v I. cbn in I.
  assert (Dn : is_dimension D n -> n = "longitude" \/ n = "latitude").
  { intros (m & w & J & K). cbn in J. destruct J as [J|[J|[J|[]]]]; inversion J; subst; cbn in K; intuition congruence. }
  destruct I as [I|[I|[I|[]]]]; inversion I; subst; (split; [cbn; repeat constructor; cbn; intuition congruence|]); try easy.
  intros Q. destruct (Dn Q); congruence.
Qed.
Lemma plain_lon : length lon <> 1%nat -> coordinate D "longitude" lon.
Proof.
  intros L. exists (vec_coord "longitude" (map (@VNum numR) lon)), "longitude". split; [|split; [|split; [|split]]].
  - constructor. cbn. auto.
  - reflexivity.
  - unfold long_dims. cbn [vec_coord x_dims filter D plain ds_size String.eqb]. cbn. destruct (Nat.eqb_spec (length lon) 1); easy.
  - reflexivity.
  - intros k K. change (ds_size D "longitude") with (length lon) in K. cbn -[nth]. now rewrite (nth_map_lt _ _ _ 0).
Qed.
Lemma plain_lat : length lat <> 1%nat -> coordinate D "latitude" lat.
Proof.
  intros L. exists (vec_coord "latitude" (map (@VNum numR) lat)), "latitude". split; [|split; [|split; [|split]]].
  - constructor. cbn. auto.
  - reflexivity.
  - unfold long_dims. cbn. destruct (Nat.eqb_spec (length lat) 1); easy.
  - reflexivity.
  - intros k K. change (ds_size D "latitude") with (length lat) in K. cbn -[nth]. now rewrite (nth_map_lt _ _ _ 0).
Qed.
Lemma plain_picks_lon : picks D [] "lon" (Some "longitude").
Proof. apply (picks_found _ _ _ [] "longitude" ["lon"]); try easy. cbn; auto. Qed.
Lemma plain_picks_lat : picks D [] "lat" (Some "latitude").
Proof. apply (picks_found _ _ _ [] "latitude" ["lat"]); try easy. cbn; auto. Qed.
Lemma plain_none ref : In ref ["time"; "u"; "v"; "vo"] -> picks D [] ref None.
Proof.
  intros I. apply picks_nothing; [easy|]. intros m M. cbn in I.
  destruct I as [<-|[<-|[<-|[<-|[]]]]]; cbn in M; cbn; intuition congruence.
Qed.
Lemma plain_avo : picks D [] "avo" (Some "pv").
Proof.
  apply (picks_found _ _ _ ["avo"; "absv"; "absolute_vorticity"] "pv" []); try easy; [cbn; auto|].
  intros m M. cbn in M. cbn. intuition congruence.
Qed.
Definition plain_data : xvar := mkVar false ["latitude"; "longitude"] (fun idx => @VNum numR (f (nth 0 idx 0%nat) (nth 1 idx 0%nat))).
Lemma plain_origin : origin D [] (FromAvo plain_data).
Proof.
  apply (origin_avo _ _ "pv"); [left; apply plain_none; cbn; auto|apply plain_none; cbn; auto|exact plain_avo|].
  constructor. cbn. auto.
Qed.
Lemma plain_reads T rs om nt tf d g : regular_lon lon d -> regular_lat lat (length lon) d -> mk_grid d rs om nt = Ok g ->
  g_nlon g = length lon -> g_nlat g = length lat -> length lat <> 1%nat ->
  exists s, from_dataset T D [] rs om nt tf = Ok [s] /\ s_grid s = g /\ s_time s = tf
    /\ state_init T g tf (Some (mat_of (length lat) (length lon) f)) None = Ok s.
Proof.
  intros R1 R2 G E1 E2 L1.
  assert (L2 : length lon <> 1%nat) by (destruct R1 as ((? & _) & _); lia).
  assert (A : accepted D [] rs om nt "longitude" "latitude" lon lat d g (FromAvo plain_data) []).
  { unfold accepted. split; [exact plain_picks_lon|]. split; [exact plain_picks_lat|]. split; [exact (plain_lon L2)|].
    split; [exact (plain_lat L1)|]. split; [exact R1|]. split; [exact R2|]. split; [exact G|].
    split; [exact plain_origin|]. split; [exact I|]. unfold data_dims, long_dims. cbn.
    destruct (Nat.eqb_spec (length lat) 1); [easy|]. destruct (Nat.eqb_spec (length lon) 1); easy. }
  assert (NT : forall dims v, ~ time_coord D [] dims v).
  { intros dims v (n & P & _). pose proof (picks_fun D [] _ _ _ (NoDup_nil _) P (plain_none "time" (or_introl eq_refl))). easy. }
  destruct (from_complete T D [] rs om nt tf plain_valid (NoDup_nil _) _ _ _ _ _ _ _ _ A) as (r & H); try easy.
  - intros v Hv. destruct (NT _ _ Hv).
  - destruct (from_states T D [] rs om nt tf _ _ _ _ _ _ _ _ r plain_valid (NoDup_nil _) A H) as [L S].
    destruct (S [] ltac:(constructor)) as (s & t & N & St & B & _). cbn in N, L.
    destruct r as [|s' [|? ?]]; cbn in L; try lia. cbn in N. assert (s' = s) by congruence. subst s'.
    destruct St as [(v & Hv & _)|[_ ->]]; [destruct (NT _ _ Hv)|]. destruct (slab_state_grid _ _ _ _ _ _ _ _ _ B) as [Q1 Q2].
    exists s. split; [exact H|]. split; [exact Q1|]. split; [exact Q2|]. cbn [slab_state] in B. rewrite <- B. f_equal. f_equal.
    unfold field_slab. rewrite E1, E2. apply mat_of_ext. intros i j Hi Hj. unfold at_pos, slab_pos, plain_data. cbn. reflexivity.
Qed.
End Plain.
