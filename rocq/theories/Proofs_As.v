(** Proofs about as_dataset. *)
From Coq Require Export String.
From Verif Require Import Spec_IO Proofs_Base Proofs_Grid Proofs_StateList Proofs_IO Proofs_From.
From Coq Require Import List Lia Lra.
Import ListNotations.
Local Open Scope string_scope.
Local Open Scope list_scope.

Lemma flat_row shape idx : length idx = length shape -> flat_index shape idx = row_major shape idx.
Proof.
  revert idx. induction shape as [|n shape IH]; intros [|i idx] L; cbn in L; try easy.
  rewrite row_cons by lia. cbn [flat_index]. rewrite IH by lia. reflexivity.
Qed.
Lemma nth_concat (ds : list vec) n k i : Forall (fun d => length d = n) ds -> (k < length ds)%nat -> (i < n)%nat ->
  nth (k * n + i) (concat ds) 0 = nth i (nth k ds []) 0.
Proof.
  intros F. revert k. induction F as [|d ds Hd F IH]; intros k K I; cbn [length] in K; [lia|].
  destruct k as [|k]; cbn [concat nth].
  - rewrite app_nth1 by lia. reflexivity.
  - rewrite app_nth2 by lia. rewrite Hd. replace (S k * n + i - n)%nat with (k * n + i)%nat by lia. apply IH; lia.
Qed.
Lemma Forall2_map_same {A B} (P : A -> B -> Prop) (f : A -> B) l : Forall2 P l (map f l) <-> Forall (fun a => P a (f a)) l.
Proof.
  induction l as [|a l IH]; cbn; [split; constructor|]. split; intros H; inversion H; subst; constructor; tauto.
Qed.
Lemma stack_spec (l : list (ndarr R)) a : l <> [] -> np_stack l = Ok a ->
  exists shape, Forall (fun b => nd_shape b = shape) l /\ a = mkNd (length l :: shape) (concat (map nd_data l)).
Proof.
  destruct l as [|b l]; [easy|]. intros _. unfold np_stack. destruct (forallb _ _) eqn:F; [|easy].
  intros E. inversion E; subst. exists (nd_shape b). split; [|easy]. apply Forall_forall. intros c I.
  rewrite forallb_forall in F. specialize (F c I). apply shape_eqb_spec in F. congruence.
Qed.
Lemma stack_same (l : list (ndarr R)) shape : l <> [] -> Forall (fun b => nd_shape b = shape) l ->
  np_stack l = Ok (mkNd (length l :: shape) (concat (map nd_data l))).
Proof.
  destruct l as [|b l]; [easy|]. intros _ F. unfold np_stack.
  assert (E : forallb (fun c => shape_eqb (nd_shape b) (nd_shape c)) (b :: l) = true).
  { apply forallb_forall. intros c I. apply shape_eqb_spec. rewrite Forall_forall in F.
    rewrite (F c I). apply F. now left. }
  rewrite E. inversion F; subst. reflexivity.
Qed.
Lemma Forall2_compose {A B C} (P : A -> B -> Prop) (Q : B -> C -> Prop) l m k : Forall2 P l m -> Forall2 Q m k ->
  Forall2 (fun a c => exists b, P a b /\ Q b c) l k.
Proof.
  intros H. revert k. induction H; intros k K; inversion K; subst; constructor; eauto.
Qed.

Lemma map_array getter sts a : sts <> [] -> sl_map getter sts = Ok (CArray a) ->
  exists shape datas, stacked getter sts shape datas /\ a = mkNd (length sts :: shape) (concat datas).
Proof.
  intros NE. unfold sl_map. destruct (res_map getter sts) as [vs|] eqn:E; [|easy]. cbn [bind]. apply res_map_ok in E.
  pose proof (Forall2_len _ _ _ E) as L.
  assert (NV : vs <> []) by (intros ->; destruct sts; easy).
  unfold convert_sequence. destruct (all_arrays_spec vs) as [AA _]. destruct (all_arrays vs) as [l|] eqn:EA.
  - specialize (AA _ eq_refl). destruct (np_stack l) as [b|] eqn:S; [|easy]. cbn [bind]. intros H. assert (b = a) by congruence. subst b.
    apply stack_spec in S as (shape & F & ->); [|intros ->; subst vs; easy].
    exists shape, (map nd_data l). split; [|subst vs; now rewrite L, map_length].
    unfold stacked. subst vs. apply (Forall2_compose _ _ _ _ (map nd_data l) E).
    clear E L NV EA H NE. induction F as [|b l Hb F IH]; cbn; constructor; [|exact IH]. left. subst shape. now destruct b.
  - destruct (all_numbers_spec vs) as [AN _]. destruct (all_numbers vs) as [xs|] eqn:EN.
    + specialize (AN _ eq_refl). intros H. assert (a = np_of_numbers xs) by congruence. subst a.
      exists [], (map (fun x => [x]) xs). split.
      * unfold stacked. subst vs. apply (Forall2_compose _ _ _ _ (map (fun x => [x]) xs) E).
        clear. induction xs; cbn; constructor; [|assumption]. right. split; [easy|]. eauto.
      * unfold np_of_numbers. subst vs. rewrite L, map_length. f_equal. clear. induction xs; cbn; [easy|]. now f_equal.
    + destruct (forallb is_state vs); [destruct (mk_statelist vs)|]; cbn [bind]; easy.
Qed.
Lemma array_map (getter : state numR -> res fvalue) sts shape (a : state numR -> ndarr R) : sts <> [] ->
  Forall (fun s => getter s = Ok (XArr (a s)) /\ nd_shape (a s) = shape) sts ->
  sl_map getter sts = Ok (CArray (mkNd (length sts :: shape) (concat (map (fun s => nd_data (a s)) sts)))).
Proof.
  intros NE F. unfold sl_map. assert (E : res_map getter sts = Ok (map XArr (map a sts))).
  { apply res_map_ok. clear NE. rewrite map_map. induction F as [|s sts [H _] F IH]; cbn; constructor; assumption. }
  rewrite E. cbn [bind]. unfold convert_sequence. rewrite all_arrays_map.
  rewrite (stack_same (map a sts) shape).
  - cbn [bind]. now rewrite map_length, map_map.
  - destruct sts; easy.
  - clear NE E. induction F as [|s sts [_ H] F IH]; cbn; constructor; assumption.
Qed.
(** elements of an exported variable *)
Lemma nd_var_at dims n shape datas k idx : Forall (fun d => length d = size_of shape) datas -> (k < length datas)%nat -> in_range idx shape ->
  x_at (nd_var dims (mkNd (n :: shape) (concat datas))) (k :: idx) = @VNum numR (nth (row_major shape idx) (nth k datas []) 0).
Proof.
  intros F K R. cbn [nd_var x_at nd_shape nd_data]. f_equal. pose proof (range_length _ _ R) as L.
  cbn [flat_index]. rewrite (flat_row shape idx L). apply nth_concat; [exact F|exact K|now apply row_bound].
Qed.

Lemma out_lat g n cd : out_size g n cd "latitude" = g_nlat g. Proof. reflexivity. Qed.
Lemma out_lon g n cd : out_size g n cd "longitude" = g_nlon g. Proof. reflexivity. Qed.
Lemma out_cd g n cd : cd <> "latitude" -> cd <> "longitude" -> out_size g n cd cd = n.
Proof.
  intros A B. unfold out_size. destruct (String.eqb_spec cd "latitude"); [easy|]. destruct (String.eqb_spec cd "longitude"); [easy|].
  rewrite String.eqb_refl, orb_true_r. reflexivity.
Qed.
Lemma out_time g n cd : out_size g n cd "time" = n. Proof. reflexivity. Qed.
Lemma export_inv g sts cd getter shape0 v : cd <> "latitude" -> cd <> "longitude" -> sts <> [] ->
  export_field g sts cd getter = Ok (shape0, v) -> fits (out_size g (length sts) cd) shape0 v = true ->
  exists shape datas inner, stacked getter sts shape datas /\ inner_dims g shape inner
    /\ x_coord v = false /\ x_dims v = cd :: inner
    /\ v = nd_var (cd :: inner) (mkNd (length sts :: shape) (concat datas)).
Proof.
  intros A B NE. unfold export_field. destruct (sl_map getter sts) as [[a|l|l]|] eqn:E; try easy. cbn [bind].
  destruct (map_array _ _ _ NE E) as (shape & datas & S & ->). cbn [nd_shape].
  assert (Fin : forall dims, Ok (length sts :: shape, nd_var dims (mkNd (length sts :: shape) (concat datas))) = Ok (shape0, v) ->
     fits (out_size g (length sts) cd) shape0 v = true -> (length sts :: shape) = map (out_size g (length sts) cd) dims
     /\ v = nd_var dims (mkNd (length sts :: shape) (concat datas))).
  { intros dims H F. inversion H; subst. unfold fits in F. apply shape_eqb_spec in F. cbn [nd_var x_dims] in F. split; [exact F|easy]. }
  destruct shape as [|a [|b [|c r]]]; cbn [field_dims bind].
  - intros H F. destruct (Fin _ H F) as [_ ->]. exists [], datas, []. repeat split; auto. now left.
  - destruct (Nat.eqb_spec a (g_nlat g)) as [Ea|Ea]; [|destruct (Nat.eqb_spec a (g_nlon g)) as [Eb|Eb]; [|easy]];
      cbn [bind]; intros H F; destruct (Fin _ H F) as [_ ->].
    + exists [a], datas, ["latitude"]. repeat split; auto. right; left. now subst.
    + exists [a], datas, ["longitude"]. repeat split; auto. right; right; left. now subst.
  - intros H F. destruct (Fin _ H F) as [Q ->]. cbn [map] in Q. rewrite out_lat, out_lon in Q.
    exists [a; b], datas, ["latitude"; "longitude"]. repeat split; auto. right; right; right. split; [congruence|easy].
  - easy.
Qed.
Lemma grid_dims_differ res rs om nt g : mk_grid res rs om nt = Ok g -> g_nlat g <> g_nlon g.
Proof.
  intros H E. destruct (mk_grid_facts _ _ _ _ _ H) as [_ _ _ _ _ L4 L3 lo hi lo2 hi2 _].
  assert (Q : (2 * (g_nlat g - 1) < g_nlon g + 1)%nat).
  { apply INR_lt. rewrite mult_INR, plus_INR. cbn [INR]. replace (360 / res) with (2 * (180 / res)) in hi by (unfold Rdiv; ring). lra. }
  lia.
Qed.

(** *** the whole dataset *)
Lemma res_map_In {A B} (f : A -> res B) l r a : res_map f l = Ok r -> In a l -> exists b, In b r /\ f a = Ok b.
Proof.
  intros H. apply res_map_ok in H. induction H as [|x y l r E H IH]; intros I; [easy|].
  destruct I as [<-|I]; [exists y; split; [now left|exact E]|]. destruct (IH I) as (b & J & F). exists b. split; [now right|exact F].
Qed.
Definition base_coords (g : grid) (sts : list (state numR)) : list (string * xvar) :=
  [("latitude", vec_coord "latitude" (map (@VNum numR) (g_lat g)));
   ("longitude", vec_coord "longitude" (map (@VNum numR) (g_lon g)));
   ("time", vec_coord "time" (map s_time sts))].
Lemma as_inv states fields cd attr ds : states <> [] -> as_dataset states fields cd attr = Ok ds ->
  exists s0 sts cc vars, states = map XState (s0 :: sts) /\ concat_coord (s0 :: sts) cd attr = Ok cc
    /\ res_map (fun f => do (shape, v) <- export_field (s_grid s0) (s0 :: sts) cd (snd f); Ok (fst f, (shape, v))) fields = Ok vars
    /\ (forall f, In f fields -> ~ In (fst f) (map fst (base_coords (s_grid s0) (s0 :: sts) ++ cc)))
    /\ Forall (fun f => fits (out_size (s_grid s0) (length (s0 :: sts)) cd) (fst (snd f)) (snd (snd f)) = true) vars
    /\ ds = mkDs (out_size (s_grid s0) (length (s0 :: sts)) cd)
              ((base_coords (s_grid s0) (s0 :: sts) ++ cc) ++ map (fun f => (fst f, snd (snd f))) vars).
Proof.
  intros NE. destruct states as [|x states]; [easy|]. unfold as_dataset.
  destruct (mk_statelist (x :: states)) as [sts|] eqn:M; [|easy]. cbn [bind]. apply mk_accepts in M as [M _].
  destruct sts as [|s0 sts]; [easy|]. cbn [sl_grid hd_error option_map].
  fold (base_coords (s_grid s0) (s0 :: sts)).
  destruct (concat_coord _ cd attr) as [cc|] eqn:C; [|easy]. cbn [bind].
  destruct (res_map _ fields) as [vars|] eqn:RM; [|easy]. cbn [bind].
  destruct (existsb _ fields) eqn:X; [easy|]. destruct (forallb _ vars) eqn:F; [|easy].
  intros H. exists s0, sts, cc, vars. split; [exact M|]. split; [exact C|]. split; [exact RM|]. split; [|split].
  - intros f I J. assert (existsb (fun f => mem (fst f) (map fst (base_coords (s_grid s0) (s0 :: sts) ++ cc))) fields = true); [|congruence].
    apply existsb_exists. exists f. split; [exact I|]. now apply mem_In.
  - apply Forall_forall. intros f I. rewrite forallb_forall in F. now apply F.
  - congruence.
Qed.
