(** Figures: theorems. *)
From Coq Require Export String.
From Verif Require Import Base Spec_Fourier Spec_Figure Spec_Grid Spec_Spectral Spec_State Spec_Instance Model_Grid Model_State Model_Plot Model_Figure Proofs_Base Proofs_Grid Proofs_StateList Proofs_Plot Props_Plot Spec_Quad Proofs_Quad Proofs_Zonalize Proofs_Falwa Props_Falwa Props_Profile Proofs_Spectral Proofs_Wavelet Props_Wavelet Props_Fourier Props_Filter Proofs_State Proofs_Orog Proofs_Instance Props_State Proofs_Figure Spec_Ks Spec_Deriv Proofs_From Props_Ks.
From Coquelicot Require Import Complex.
From Verif Require Import Model_Region.
From Coq Require Import List Lia Lra.
Open Scope R_scope.

Definition fields_shaped {K} (T : sphfam) (s : state K) : Prop :=
  let sh := shaped (g_nlat (s_grid s)) (g_nlon (s_grid s)) in
  sh (s_pv T s) /\ sh (s_u T s) /\ sh (s_v T s) /\ sh (s_streamfunction T s).
(** the map drawn by a contour command shows the field q *)
Definition contour_shows (g : grid) (offset : option R) (d : draw) (q : list (list (option R))) : Prop :=
  match d, offset with
  | DContour _ x y z _, Some o => map_of o (g_lon g) (g_lat g) x y z q
  | _, _ => False
  end.
Definition quiver_shows (g : grid) (offset : option R) (d : draw) (qu qv : mat) : Prop :=
  match d, offset with
  | DQuiver x y u v, Some o => true_to o (g_lon g) (g_lat g) x y u qu /\ true_to o (g_lon g) (g_lat g) x y v qv
  | _, _ => False
  end.
Definition values (f : mat) : list (list (option R)) := map (map Some) f.
Definition times (c : R) (f : mat) : mat := map (map (fun x => c * x)) f.

Ltac step H :=
  match type of H with
  | bind ?r _ = Ok _ => let E := fresh "E" in destruct r eqn:E; cbn [bind] in H; [|discriminate H]
  | (let (_, _) := ?p in _) = Ok _ => let E := fresh "E" in destruct p eqn:E; cbn iota in H
  end.
Lemma times_shaped nr nc c f : shaped nr nc f -> shaped nr nc (times c f).
Proof. exact (shaped_mscale nr nc c f). Qed.

Lemma contour_shape f x y z l d : contour f x y z l = Ok d -> shapedb (length x) (ncols x) z = true.
Proof. unfold contour. destruct (shapedb _ _ _); [reflexivity|discriminate]. Qed.
Lemma unrolled {A} (d : A) s nr nc m : shaped nr nc (map (zroll d s) m) -> shaped nr nc m.
Proof.
  intros [L F]. rewrite map_length in L. split; [exact L|]. rewrite Forall_map in F. eapply Forall_impl; [|exact F]. intros r Hr. cbv beta in Hr. now rewrite zroll_length in Hr.
Qed.
Lemma unsome nr nc m : shaped nr nc (some2 m) -> shaped nr nc m.
Proof.
  unfold some2. intros [L F]. rewrite map_length in L. split; [exact L|]. rewrite Forall_map in F. eapply Forall_impl; [|exact F]. intros r Hr. cbv beta in Hr. now rewrite map_length in Hr.
Qed.
Lemma contour_true g center f l m d : (0 < g_nlat g)%nat -> (0 < g_nlon g)%nat ->
  contour f (g_lon2 g) (g_lat2 g) (some2 (fst (roll_lon (g_lon g) center) m)) l = Ok d ->
  exists c, d = [c] /\ contour_shows g (Some (snd (roll_lon (g_lon g) center))) c (values m).
Proof.
  intros N0 N E. pose proof (contour_shape _ _ _ _ _ _ E) as S. apply contour_ok in E. eexists. split; [exact E|].
  apply shapedb_spec in S. rewrite (proj1 (lon2_shaped g)), (shaped_ncols _ _ _ (lon2_shaped g) N0) in S. apply unsome in S.
  apply rolled_some; [exact N|]. exact (unrolled 0 _ _ _ m S).
Qed.
Lemma unless_true g center l m d : (0 < g_nlat g)%nat -> (0 < g_nlon g)%nat ->
  contour_unless_constant (g_lon2 g) (g_lat2 g) (some2 (fst (roll_lon (g_lon g) center) m)) l = Ok d ->
  (length d <= 1)%nat /\ Forall (fun c => contour_shows g (Some (snd (roll_lon (g_lon g) center))) c (values m)) d.
Proof.
  intros N0 N E. unfold contour_unless_constant in E. destruct (Req_EM_T _ _).
  - apply Ok_inj in E. subst d. split; [cbn; lia|constructor].
  - destruct (contour_true g center _ _ m d N0 N E) as [c [-> S]]. split; [cbn; lia|]. constructor; [exact S|constructor].
Qed.
Ltac contours :=
  repeat match goal with E : contour _ _ _ (some2 (?roll ?m)) _ = Ok ?d, CT : forall f l m d, contour f _ _ (some2 (?roll m)) l = Ok d -> _ |- _ =>
    let c := fresh "c" in let E2 := fresh "E" in let S := fresh "S" in apply CT in E; destruct E as [c [E2 S]]; subst d end.

(** ** C96 *)
(** The four panels of summary: all contours are true and complete maps of their
    fields in the labelled coordinates. *)
Theorem C96_summary_maps : forall K (T : sphfam) (s : state K) hemisphere center pv_max v_max fig, (0 < g_nlat (s_grid s))%nat -> (0 < g_nlon (s_grid s))%nat ->
  summary T s hemisphere center pv_max v_max = Ok fig ->
  exists p11 p12 p21 p22 pvc vectors vc psic, fig = [p11; p12; p21; p22]
  /\ pn_draws p12 = pvc :: vectors /\ contour_shows (s_grid s) (pn_offset p12) pvc (values (times 10000 (s_pv T s)))
  /\ pn_draws p22 = vc :: psic /\ contour_shows (s_grid s) (pn_offset p22) vc (values (s_v T s))
  /\ (length psic <= 1)%nat /\ Forall (fun d => contour_shows (s_grid s) (pn_offset p22) d (values (s_streamfunction T s))) psic.
Proof.
  intros K T s hemi center pm vm fig N0 N H. unfold summary in H.
  pose proof (fun f l m d => contour_true (s_grid s) center f l m d N0 N) as CT. pose proof (fun l m d => unless_true (s_grid s) center l m d N0 N) as UT.
  destruct (roll_lon (g_lon (s_grid s)) center) as [roll offset]. cbn [fst snd] in CT, UT.
  repeat step H. apply Ok_inj in H. subst fig. contours.
  match goal with E : contour_unless_constant _ _ _ _ = Ok _ |- _ => apply UT in E; destruct E as [UL UF] end.
  do 8 eexists. split; [reflexivity|]. cbn [pn_draws pn_offset app]. split; [reflexivity|]. split; [eassumption|].
  split; [reflexivity|]. split; [eassumption|]. split; [exact UL|exact UF].
Qed.
Print Assumptions C96_summary_maps.

Lemma dev_form nr nc pv zl : shaped nr nc pv -> length zl = nr ->
  map2 (fun row q => map (fun x => x - q) row) (mscale 10000 pv) (map (fun q => 10000 * q) zl) = mat_of nr nc (fun i j => 10000 * (mget pv i j - nth i zl 0)).
Proof.
  intros S L. pose proof (times_shaped nr nc 10000 pv S) as S2. apply (list_eq_nth []).
  - rewrite map2_length, map_length. unfold mat_of. rewrite tab_length. pose proof (proj1 S2 : length (mscale 10000 pv) = nr). lia.
  - intros i Hi. rewrite map2_length, map_length in Hi. assert (Hi' : (i < nr)%nat) by lia.
    rewrite (map2_nth _ _ _ i [] 0) by (rewrite ?map_length; pose proof (proj1 S2 : length (mscale 10000 pv) = nr); lia).
    unfold mat_of. rewrite tab_nth by exact Hi'. rewrite (nth_map_lt _ _ _ 0 _) by lia.
    unfold mscale, vscale. rewrite (nth_map_lt _ _ _ [] _) by (destruct S; lia). pose proof (shaped_row nr nc pv i [] S Hi') as R.
    apply (list_eq_nth 0); [rewrite !map_length, tab_length; exact R|]. intros j Hj. rewrite !map_length in Hj.
    rewrite map_map, (nth_map_lt _ _ _ 0 _) by exact Hj. rewrite tab_nth by lia. unfold mget. ring.
Qed.
Lemma zonalized res rs om nt g pv : mk_grid res rs om nt = Ok g -> shaped (g_nlat g) (g_nlon g) pv ->
  exists zl, zonalize g pv LNone "sptrapz" = Ok zl /\ length zl = g_nlat g.
Proof.
  intros Hg S. pose proof (nlon_pos _ _ _ _ _ Hg) as N. pose proof (nlat_gt1' _ _ _ _ _ Hg) as N1.
  assert (Ex : extremes (g_nlat g) (g_nlon g) pv (mmin pv) (mmax pv)).
  { assert (NE : concat pv <> []).
    { assert (I : In (mget pv 0 0) (concat pv)) by (apply (in_concat_mget _ _ pv _ S); exists 0%nat, 0%nat; repeat split; lia). intros E. now rewrite E in I. }
    unfold mmin, mmax. split; [|split].
    - intros i j Hi Hj. assert (I : In (mget pv i j) (concat pv)) by (apply (in_concat_mget _ _ pv _ S); exists i, j; auto). split; [now apply vmin_le|now apply vmax_ge].
    - destruct (proj1 (in_concat_mget _ _ pv _ S) (vmin_in _ NE)) as [i [j [Hi [Hj E]]]]. exists i, j. auto.
    - destruct (proj1 (in_concat_mget _ _ pv _ S) (vmax_in _ NE)) as [i [j [Hi [Hj E]]]]. exists i, j. auto. }
  destruct (C94_profile _ _ _ _ _ Hg (g_nlon g) pv LNone "sptrapz" _ _ (or_intror eq_refl) ltac:(lia) S Ex (conj I I)) as [q [z [E [L _]]]]. eauto.
Qed.
(** The zonalized PV and FALWA in these figures are those of State.pv_zonalized
    (with interpolation to the gridpoints) and State.falwa *)
Theorem C96_wave_activity_maps : forall K (T : sphfam) (s : state K) res rs om nt hemisphere center fig, mk_grid res rs om nt = Ok (s_grid s) -> fields_shaped T s ->
  wave_activity T s hemisphere center = Ok fig ->
  exists p11 p12 p21 p22 zl lwa dev pvc wac pvc2, fig = [p11; p12; p21; p22]
  /\ zonalize (s_grid s) (s_pv T s) LNone "sptrapz" = Ok zl /\ falwa (s_grid s) (s_pv T s) LNone "sptrapz" = Ok lwa
  /\ pn_draws p12 = [dev; pvc] /\ pn_draws p22 = [wac; pvc2]
  /\ contour_shows (s_grid s) (pn_offset p12) dev (values (mat_of (g_nlat (s_grid s)) (g_nlon (s_grid s)) (fun i j => 10000 * (mget (s_pv T s) i j - nth i zl 0))))
  /\ contour_shows (s_grid s) (pn_offset p12) pvc (values (times 10000 (s_pv T s)))
  /\ contour_shows (s_grid s) (pn_offset p22) wac lwa
  /\ contour_shows (s_grid s) (pn_offset p22) pvc2 (values (times 10000 (s_pv T s))).
Proof.
  intros K T s res rs om nt hemi center fig Hg [S1 [S2 [S3 S4]]] H. pose proof (nlon_pos _ _ _ _ _ Hg) as N.
  destruct (zonalized _ _ _ _ _ _ Hg S1) as [zl0 [EZ LZ]].
  destruct (proj1 (C69_defined _ _ _ _ _ (s_pv T s) LNone "sptrapz" Hg (or_intror eq_refl) S1) I) as [_ [lwa0 [EF SF]]].
  unfold wave_activity in H.
  pose proof (rolled_some (s_grid s) center) as RS. pose proof (@rolled_map (option R) None (s_grid s) center) as RM. unfold oroll in H.
  destruct (roll_lon (g_lon (s_grid s)) center) as [roll offset] eqn:RL. cbn [fst snd] in RS.
  assert (EO : offset = py_nth (g_lon (s_grid s)) (roll_shift (g_lon (s_grid s)) center)) by (unfold roll_lon in RL; congruence). rewrite <- EO in RM.
  rewrite EZ in H. cbn [bind] in H. rewrite (dev_form _ _ _ _ S1 LZ) in H.
  repeat step H. apply Ok_inj in H. subst fig.
  repeat match goal with E : contour _ _ _ _ _ = Ok _ |- _ => apply contour_ok in E; subst end.
  do 10 eexists. split; [reflexivity|]. split; [exact EZ|]. split; [reflexivity|]. cbn [pn_draws pn_offset app]. split; [reflexivity|]. split; [reflexivity|].
  split; [|split; [|split]].
  - apply (RS _ N (shaped_mat_of _ _ _)).
  - apply (RS _ N (times_shaped _ _ 10000 _ S1)).
  - apply (RM _ N). congruence.
  - apply (RS _ N (times_shaped _ _ 10000 _ S1)).
Qed.
Print Assumptions C96_wave_activity_maps.

Lemma finite_rows_values m : forall r, finite_rows m = Some r -> m = values r.
Proof.
  induction m as [|l m IH]; cbn; intros r H; [injection H as <-; reflexivity|].
  destruct (somes l) as [a|] eqn:E; [|discriminate]. destruct (finite_rows m) as [b|]; [|discriminate]. injection H as <-. cbn. f_equal.
  - clear IH. revert a E. induction l as [|x l IH]; cbn; intros a E; [injection E as <-; reflexivity|].
    destruct x as [x|]; [|discriminate]. destruct (somes l) as [y|]; [|discriminate]. injection E as <-. cbn. now rewrite <- IH.
  - now apply IH.
Qed.
Theorem C96_rwp_maps : forall K (T : sphfam) W (s : state K) hemisphere center v_max rwp_max fig, (0 < g_nlat (s_grid s))%nat -> (0 < g_nlon (s_grid s))%nat ->
  rwp_diagnostics T W s hemisphere center v_max rwp_max = Ok fig ->
  exists p1 p2 p3 vc dwnc envc psic lwac pvc dwn env lwa rows filtered, fig = [p1; p2; p3]
  /\ dominant_wavenumber_wavelet W (s_v T s) (s_grid s) (Some (Hann, 40, 10)) = Ok (A2 dwn)
  /\ envelope_hilbert (s_v T s) 2 10 = Ok env
  /\ falwa (s_grid s) (s_pv T s) LNone "sptrapz" = Ok lwa /\ lwa = values rows /\ filter_by_wavenumber rows (A2 (times 2 dwn)) = Ok filtered
  /\ pn_draws p1 = vc :: dwnc /\ contour_shows (s_grid s) (pn_offset p1) vc (values (s_v T s))
  /\ (length dwnc <= 1)%nat /\ Forall (fun d => contour_shows (s_grid s) (pn_offset p1) d (values dwn)) dwnc
  /\ pn_draws p2 = envc :: psic /\ contour_shows (s_grid s) (pn_offset p2) envc (values env)
  /\ (length psic <= 1)%nat /\ Forall (fun d => contour_shows (s_grid s) (pn_offset p2) d (values (s_streamfunction T s))) psic
  /\ pn_draws p3 = [lwac; pvc] /\ contour_shows (s_grid s) (pn_offset p3) lwac (values filtered)
  /\ contour_shows (s_grid s) (pn_offset p3) pvc (values (s_pv T s)).
Proof.
  intros K T W s hemi center vm rm fig N0 N H. unfold rwp_diagnostics in H.
  pose proof (fun f l m d => contour_true (s_grid s) center f l m d N0 N) as CT. pose proof (fun l m d => unless_true (s_grid s) center l m d N0 N) as UT.
  destruct (roll_lon (g_lon (s_grid s)) center) as [roll offset]. cbn [fst snd] in CT, UT.
  repeat step H. apply Ok_inj in H. subst fig. contours.
  match goal with E : contour_unless_constant _ _ _ _ = Ok _ |- _ => apply UT in E; destruct E as [UL UF] end.
  destruct a1 as [|dwn|]; try discriminate E2. apply Ok_inj in E2. subst a2.
  destruct (finite_rows a5) as [rows|] eqn:Hr; [|discriminate E6]. apply Ok_inj in E6. subst a6. apply finite_rows_values in Hr.
  assert (D : (length a3 <= 1)%nat /\ Forall (fun d => contour_shows (s_grid s) (Some offset) d (values dwn)) a3).
  { destruct (Req_EM_T _ _) in E3.
    - apply Ok_inj in E3. subst a3. split; [cbn; lia|constructor].
    - apply CT in E3. destruct E3 as [x [-> Sx]]. split; [cbn; lia|]. constructor; [exact Sx|constructor]. }
  exists (mkPanel ([c2] ++ a3) (Some offset) (configure_lat_y hemi)), (mkPanel ([c1] ++ a9) (Some offset) (configure_lat_y hemi)), (mkPanel ([c0] ++ [c]) (Some offset) (configure_lat_y hemi)).
  exists c2, a3, c1, a9, c0, c, dwn, a4, a5, rows, a7. cbn [pn_draws pn_offset app].
  repeat match goal with |- _ /\ _ => split end; try reflexivity; try assumption; try exact (proj1 D); exact (proj2 D).
Qed.
Print Assumptions C96_rwp_maps.

(** ** C97: the figures can be drawn *)
(** the optional limits of the colorbars *)
Definition no_or_nonneg (m : option R) : Prop := match m with None => True | Some m => 0 <= m end.
Definition constant_field (nr nc : nat) (f : mat) : Prop := exists c, forall i j, (i < nr)%nat -> (j < nc)%nat -> mget f i j = c.

Lemma no_or_nonneg_dec m : {no_or_nonneg m} + {exists e, m = Some e /\ e < 0}.
Proof. destruct m as [e|]; [|left; exact I]. destruct (Rle_lt_dec 0 e); [left; assumption|right; eauto]. Qed.
Lemma symmetric_ok x n e : (2 <= n)%nat -> x <> [] -> no_or_nonneg e ->
  exists l, symmetric_levels x n e = Ok l /\ (2 <= length l)%nat /\ levels_increase l = true.
Proof.
  intros N X E. unfold symmetric_levels.
  assert (Q : exists m, (match e with Some e => Ok e | None => match x with [] => Err ValueError | _ => Ok (Rmax (Rabs (vmin x)) (Rabs (vmax x))) end end : res R) = Ok m /\ 0 <= m).
  { destruct e as [e|]; [eauto|]. destruct x; [congruence|]. eexists. split; [reflexivity|]. eapply Rle_trans; [apply Rabs_pos|apply Rmax_l]. }
  destruct Q as [m [-> M]]. cbn [bind]. destruct (Req_EM_T m 0).
  - exists [-1; 1]. split; [reflexivity|]. split; [cbn; lia|]. apply increasing_spec. intros [|[|i]] Hi; cbn in Hi |- *; try lia; lra.
  - eexists. split; [reflexivity|]. rewrite span_length. split; [exact N|]. apply span_increases. lra.
Qed.
Lemma symmetric_bad x n e : (2 <= n)%nat -> e < 0 -> exists l, symmetric_levels x n (Some e) = Ok l /\ levels_increase l = false.
Proof.
  intros N E. unfold symmetric_levels. cbn [bind]. destruct (Req_EM_T e 0); [lra|]. eexists. split; [reflexivity|]. apply span_not_increasing; [exact N|lra].
Qed.
Lemma contour_bad f x y z l : shapedb (length x) (ncols x) z = true -> levels_increase l = false -> contour f x y z (Some l) = Err ValueError.
Proof. intros S I. unfold contour. rewrite S, I. now rewrite orb_true_r. Qed.
Lemma not_empty nr nc (f : mat) : (0 < nr)%nat -> (0 < nc)%nat -> shaped nr nc f -> concat f <> [].
Proof.
  intros N0 N S E. assert (I : In (mget f 0 0) (concat f)) by (apply (in_concat_mget nr nc); [exact S|exists 0%nat, 0%nat; auto]). now rewrite E in I.
Qed.
Lemma rolled_shape g center m : (0 < g_nlat g)%nat -> shaped (g_nlat g) (g_nlon g) m ->
  shapedb (length (g_lon2 g)) (ncols (g_lon2 g)) (some2 (fst (roll_lon (g_lon g) center) m)) = true.
Proof. intros N0 S. apply shape_lon2; [exact N0|]. apply some2_shaped, shaped_roll, S. Qed.
Lemma range_ok f n : mmin f < mmax f -> levels_increase (range_levels f n) = true.
Proof. apply span_increases. Qed.
Lemma by_hemisphere_cases {A} h (a b : A) : by_hemisphere h a b = a \/ by_hemisphere h a b = b.
Proof. unfold by_hemisphere. destruct (String.eqb _ _); auto. Qed.
Lemma min_le_max nr nc f : (0 < nr)%nat -> (0 < nc)%nat -> shaped nr nc f -> mmin f <= mmax f.
Proof. intros N0 N S. apply vmin_le, vmax_in. now apply (not_empty nr nc). Qed.
Lemma unless_ok g center n m : (0 < g_nlat g)%nat -> (0 < g_nlon g)%nat -> (2 <= n)%nat -> shaped (g_nlat g) (g_nlon g) m ->
  exists d, contour_unless_constant (g_lon2 g) (g_lat2 g) (some2 (fst (roll_lon (g_lon g) center) m)) (range_levels m n) = Ok d.
Proof.
  intros N0 N Hn S. unfold contour_unless_constant, range_levels. rewrite span_first, span_last by exact Hn. destruct (Req_EM_T _ _); [eauto|].
  pose proof (min_le_max _ _ m N0 N S). rewrite contour_accepts; [eauto|now apply rolled_shape|now rewrite span_length|apply span_increases; lra].
Qed.

Theorem C97_summary : forall K (T : sphfam) (s : state K) hemisphere center pv_max v_max, (0 < g_nlat (s_grid s))%nat -> (0 < g_nlon (s_grid s))%nat -> fields_shaped T s ->
  (no_or_nonneg pv_max /\ no_or_nonneg v_max -> exists fig, summary T s hemisphere center pv_max v_max = Ok fig)
  /\ (~ (no_or_nonneg pv_max /\ no_or_nonneg v_max) -> summary T s hemisphere center pv_max v_max = Err ValueError).
Proof.
  intros K T s hemi center pm vm N0 N [S1 [S2 [S3 S4]]]. unfold summary.
  pose proof (fun m => rolled_shape (s_grid s) center m N0) as RS. pose proof (fun n m => unless_ok (s_grid s) center n m N0 N) as UO.
  destruct (roll_lon (g_lon (s_grid s)) center) as [roll offset]. cbn [fst] in RS, UO.
  pose proof (times_shaped _ _ 10000 _ S1) as S1'. change (times 10000 (s_pv T s)) with (mscale 10000 (s_pv T s)) in S1'.
  set (pv := mscale 10000 (s_pv T s)) in *.
  assert (H1 : (2 <= by_hemisphere hemi 11 17)%nat) by (destruct (by_hemisphere_cases hemi 11%nat 17%nat) as [-> | ->]; lia).
  assert (H2 : (2 <= by_hemisphere hemi 10 14)%nat) by (destruct (by_hemisphere_cases hemi 10%nat 14%nat) as [-> | ->]; lia).
  assert (H3 : exists q, (if is_zero (s_u T s) && is_zero (s_v T s) then Ok []
     else do (x, y, u, v) <- reduce_vectors (g_lon2 (s_grid s)) (g_lat2 (s_grid s)) (s_u T s) (s_v T s) (by_hemisphere hemi 13%Z 21%Z);
          Ok [DQuiver x y u v]) = Ok q).
  { destruct (_ && _); [eauto|]. unfold reduce_vectors. destruct (by_hemisphere_cases hemi 13%Z 21%Z) as [-> | ->]; cbn; eauto. }
  destruct H3 as [q Hq].
  destruct (no_or_nonneg_dec pm) as [P|[e [-> P]]].
  - destruct (symmetric_ok (concat pv) _ (option_map (fun m => m * 10000) pm) H1 (not_empty _ _ _ N0 N S1')) as [l [El [Ll Il]]].
    { destruct pm as [m|]; [cbn in P |- *; lra|exact I]. }
    rewrite El. cbn [bind]. rewrite contour_accepts by (auto; now apply RS). cbn [bind]. rewrite Hq. cbn [bind].
    destruct (no_or_nonneg_dec vm) as [V|[e [-> V]]].
    + destruct (symmetric_ok (concat (s_v T s)) 10 vm ltac:(lia) (not_empty _ _ _ N0 N S3) V) as [l2 [El2 [Ll2 Il2]]].
      rewrite El2. cbn [bind]. rewrite contour_accepts by (auto; now apply RS). cbn [bind].
      destruct (UO _ _ H2 S4) as [d Hd]. rewrite Hd. cbn [bind]. split; [eauto|]. intros H. exfalso. apply H. auto.
    + destruct (symmetric_bad (concat (s_v T s)) 10 e ltac:(lia) V) as [l2 [El2 Il2]].
      rewrite El2. cbn [bind]. rewrite contour_bad by (auto; now apply RS). split; [intros [_ W]; cbn in W; lra|reflexivity].
  - destruct (symmetric_bad (concat pv) _ (e * 10000) H1 ltac:(lra)) as [l [El Il]]. cbn [option_map].
    rewrite El. cbn [bind]. rewrite contour_bad by (auto; now apply RS). split; [intros [W _]; cbn in W; lra|reflexivity].
Qed.
Print Assumptions C97_summary.

Lemma fields_shaped_exact {K} (T : sphfam) g (s : state K) : exact_on T g -> on_grid T g s -> fields_shaped T s.
Proof.
  intros HE HO. pose proof HO as [Eg _]. unfold fields_shaped. cbv zeta. rewrite Eg. split; [now apply (pv_shape T g HE)|].
  destruct (uv_shaped T g HE s Eg) as [Su Sv]. split; [exact Su|]. split; [exact Sv|]. unfold s_streamfunction. rewrite Eg. apply (B_shape T g HE).
Qed.
Lemma extremes_of nr nc f : (0 < nr)%nat -> (0 < nc)%nat -> shaped nr nc f -> extremes nr nc f (mmin f) (mmax f).
Proof.
  intros N0 N S. pose proof (not_empty nr nc f N0 N S) as NE. unfold mmin, mmax. split; [|split].
  - intros i j Hi Hj. assert (I : In (mget f i j) (concat f)) by (apply (in_concat_mget nr nc f _ S); exists i, j; auto). split; [now apply vmin_le|now apply vmax_ge].
  - destruct (proj1 (in_concat_mget nr nc f _ S) (vmin_in _ NE)) as [i [j [Hi [Hj E]]]]. exists i, j. auto.
  - destruct (proj1 (in_concat_mget nr nc f _ S) (vmax_in _ NE)) as [i [j [Hi [Hj E]]]]. exists i, j. auto.
Qed.
Lemma range_cases nr nc f c : (0 < nr)%nat -> (0 < nc)%nat -> shaped nr nc f -> 0 < c ->
  (~ constant_field nr nc f -> mmin (times c f) < mmax (times c f)) /\ (constant_field nr nc f -> mmin (times c f) = mmax (times c f)).
Proof.
  intros N0 N S C. pose proof (times_shaped nr nc c f S) as S'. destruct (extremes_of nr nc _ N0 N S') as [B [[i1 [j1 [Hi1 [Hj1 E1]]]] [i2 [j2 [Hi2 [Hj2 E2]]]]]].
  assert (G : forall i j, (i < nr)%nat -> (j < nc)%nat -> mget (times c f) i j = c * mget f i j) by (intros i j Hi Hj; apply (mget_mscale nr nc); auto).
  split.
  - intros H. destruct (Rlt_le_dec (mmin (times c f)) (mmax (times c f))) as [L|L]; [exact L|]. exfalso. apply H. exists (mget f 0 0). intros i j Hi Hj.
    pose proof (B i j Hi Hj) as Q1. pose proof (B 0%nat 0%nat N0 N) as Q2. rewrite !G in Q1, Q2 by assumption. assert (Q : c * mget f i j = c * mget f 0 0) by lra. apply Rmult_eq_reg_l in Q; lra.
  - intros [x X]. rewrite <- E1, <- E2, !G, !X by assumption. reflexivity.
Qed.
Lemma inner_levels_ok f n : (4 <= n)%nat -> mmin f < mmax f ->
  (2 <= length (removelast (tl (range_levels f n))))%nat /\ levels_increase (removelast (tl (range_levels f n))) = true.
Proof. intros Hn H. split; [rewrite inner_length; unfold range_levels; rewrite span_length; lia|]. apply inner_increases, span_increases, H. Qed.
Lemma inner_levels_bad f n : (4 <= n)%nat -> mmin f = mmax f -> levels_increase (removelast (tl (range_levels f n))) = false.
Proof.
  intros Hn H. destruct (levels_increase _) eqn:E; [|reflexivity]. exfalso. pose proof (proj1 (increasing_spec _) E 0%nat) as Q. rewrite inner_length in Q. unfold range_levels in Q. rewrite span_length in Q. specialize (Q ltac:(lia)).
  rewrite !inner_nth, !span_get, H in Q by (rewrite ?span_length; lia). unfold Rdiv in Q. rewrite Rminus_eq_0 in Q. lra.
Qed.

(** Full claim: for all PV fields *)
Theorem C97_wave_activity_partial : forall K (T : sphfam) (s : state K) res rs om nt hemisphere center, mk_grid res rs om nt = Ok (s_grid s) -> fields_shaped T s ->
  ~ constant_field (g_nlat (s_grid s)) (g_nlon (s_grid s)) (s_pv T s) -> exists fig, wave_activity T s hemisphere center = Ok fig.
Proof.
  intros K T s res rs om nt hemi center Hg [S1 [S2 [S3 S4]]] NC. pose proof (nlon_pos _ _ _ _ _ Hg) as N. pose proof (nlat_gt1' _ _ _ _ _ Hg) as N1. assert (N0 : (0 < g_nlat (s_grid s))%nat) by lia.
  destruct (zonalized _ _ _ _ _ _ Hg S1) as [zl [EZ LZ]].
  destruct (proj1 (C69_defined _ _ _ _ _ (s_pv T s) LNone "sptrapz" Hg (or_intror eq_refl) S1) I) as [_ [lwa [EF SF]]].
  destruct (range_cases _ _ _ 10000 N0 N S1 ltac:(lra)) as [RC _]. specialize (RC NC).
  unfold wave_activity. pose proof (fun m => rolled_shape (s_grid s) center m N0) as RS.
  destruct (roll_lon (g_lon (s_grid s)) center) as [roll offset] eqn:RL. cbn [fst] in RS.
  rewrite EZ. cbn [bind]. rewrite (dev_form _ _ _ _ S1 LZ). set (dev := mat_of _ _ _). assert (SD : shaped (g_nlat (s_grid s)) (g_nlon (s_grid s)) dev) by apply shaped_mat_of.
  destruct (symmetric_ok (concat dev) 10 None ltac:(lia) (not_empty _ _ _ N0 N SD) I) as [l [El [Ll Il]]]. rewrite El. cbn [bind].
  rewrite contour_accepts by (auto; now apply RS). cbn [bind].
  assert (H2 : (4 <= by_hemisphere hemi 10 14)%nat) by (destruct (by_hemisphere_cases hemi 10%nat 14%nat) as [-> | ->]; lia).
  destruct (inner_levels_ok _ _ H2 RC) as [L2 I2]. unfold times in L2, I2. change (map (map (fun x => 10000 * x)) (s_pv T s)) with (mscale 10000 (s_pv T s)) in L2, I2.
  rewrite contour_accepts by (auto; apply RS, times_shaped, S1). cbn [bind].
  unfold state_fawa, mean_falwa. rewrite EF. cbn [bind]. unfold contour at 1. rewrite shape_lon2 by (auto; now apply shaped_roll). cbn [bind]. eauto.
Qed.
Print Assumptions C97_wave_activity_partial.
(** Constant PV: contour levels that are not increasing *)
Theorem C97_wave_activity_refuted : forall K (T : sphfam) (s : state K) res rs om nt hemisphere center, mk_grid res rs om nt = Ok (s_grid s) -> fields_shaped T s ->
  constant_field (g_nlat (s_grid s)) (g_nlon (s_grid s)) (s_pv T s) -> wave_activity T s hemisphere center = Err ValueError.
Proof.
  intros K T s res rs om nt hemi center Hg [S1 [S2 [S3 S4]]] NC. pose proof (nlon_pos _ _ _ _ _ Hg) as N. pose proof (nlat_gt1' _ _ _ _ _ Hg) as N1. assert (N0 : (0 < g_nlat (s_grid s))%nat) by lia.
  destruct (zonalized _ _ _ _ _ _ Hg S1) as [zl [EZ LZ]].
  destruct (range_cases _ _ _ 10000 N0 N S1 ltac:(lra)) as [_ RC]. specialize (RC NC).
  unfold wave_activity. pose proof (fun m => rolled_shape (s_grid s) center m N0) as RS.
  destruct (roll_lon (g_lon (s_grid s)) center) as [roll offset] eqn:RL. cbn [fst] in RS.
  rewrite EZ. cbn [bind]. rewrite (dev_form _ _ _ _ S1 LZ). set (dev := mat_of _ _ _). assert (SD : shaped (g_nlat (s_grid s)) (g_nlon (s_grid s)) dev) by apply shaped_mat_of.
  destruct (symmetric_ok (concat dev) 10 None ltac:(lia) (not_empty _ _ _ N0 N SD) I) as [l [El [Ll Il]]]. rewrite El. cbn [bind].
  rewrite contour_accepts by (auto; now apply RS). cbn [bind].
  assert (H2 : (4 <= by_hemisphere hemi 10 14)%nat) by (destruct (by_hemisphere_cases hemi 10%nat 14%nat) as [-> | ->]; lia).
  pose proof (inner_levels_bad _ _ H2 RC) as I2. change (times 10000 (s_pv T s)) with (mscale 10000 (s_pv T s)) in I2.
  rewrite contour_bad by (auto; apply RS, times_shaped, S1). reflexivity.
Qed.
Print Assumptions C97_wave_activity_refuted.

(** ** C96: the wind vectors *)
Lemma quiver_of (g : grid) o u v n x y u' v' : reduce_vectors (g_lon2 g) (g_lat2 g) u v n = Ok (x, y, u', v') -> o = 0 ->
  quiver_shows g (Some o) (DQuiver x y u' v') u v.
Proof.
  intros H ->. destruct (C83_same_points _ _ _ _ _ _ _ _ _ H) as [step [_ [Kx [Ky [Ku Kv]]]]]. unfold kept_at in *.
  assert (Q : forall f f' : mat, (forall i j, entry f' i j = entry f (step / 2 + i * step) (step / 2 + j * step)) -> true_to 0 (g_lon g) (g_lat g) x y f' f).
  { intros f f' Kf i k a b c Ha Hb Hc. change (entry x i k = Some a) in Ha. change (entry y i k = Some b) in Hb. change (entry f' i k = Some c) in Hc.
    rewrite Kx in Ha. rewrite Ky in Hb. rewrite Kf in Hc. set (r := (step / 2 + i * step)%nat) in *. set (j := (step / 2 + k * step)%nat) in *.
    apply (at2_shaped 0 _ _ _ _ _ _ (lon2_shaped g)) in Ha as [Hr [Hj <-]]. apply (at2_shaped 0 _ _ _ _ _ _ (lat2_shaped g)) in Hb as [_ [_ <-]].
    exists r, j, (nth j (g_lon g) 0). split; [apply (nth_error_val 0); rewrite lat_length, lat2_get by assumption; auto|].
    split; [apply (nth_error_val 0); rewrite lon_length; auto|]. split; [|exact Hc]. exists 0%Z. rewrite lon2_get by exact Hr. lra. }
  split; apply Q; assumption.
Qed.
Definition no_wind (u v : mat) : Prop := (forall x, In x (concat u) -> x = 0) /\ (forall x, In x (concat v) -> x = 0).
Lemma is_zero_spec f : is_zero f = true <-> forall x, In x (concat f) -> x = 0.
Proof.
  unfold is_zero. rewrite forallb_forall. split.
  - intros H x Hx. apply in_concat in Hx as [r [Hr Hx]]. specialize (H r Hr). rewrite forallb_forall in H. specialize (H x Hx). unfold Reqb in H. destruct (Req_EM_T x 0); [assumption|discriminate].
  - intros H r Hr. apply forallb_forall. intros x Hx. unfold Reqb. rewrite (H x) by (apply in_concat; eauto). destruct (Req_EM_T 0 0); [reflexivity|lra].
Qed.
Lemma summary_vectors {K} (T : sphfam) (s : state K) hemisphere center pv_max v_max p11 p12 p21 p22 : summary T s hemisphere center pv_max v_max = Ok [p11; p12; p21; p22] ->
  pn_offset p12 = Some (snd (roll_lon (g_lon (s_grid s)) center)) /\
  exists vectors, tl (pn_draws p12) = vectors /\
  ((no_wind (s_u T s) (s_v T s) /\ vectors = []) \/
   (~ no_wind (s_u T s) (s_v T s) /\ exists x y u v, vectors = [DQuiver x y u v] /\ reduce_vectors (g_lon2 (s_grid s)) (g_lat2 (s_grid s)) (s_u T s) (s_v T s) (by_hemisphere hemisphere 13%Z 21%Z) = Ok (x, y, u, v))).
Proof.
  intros H. unfold summary in H. destruct (roll_lon (g_lon (s_grid s)) center) as [roll offset]. cbn [snd].
  repeat step H. apply Ok_inj in H. injection H as <- <- <- <-. repeat match goal with E : contour _ _ _ _ _ = Ok _ |- _ => apply contour_ok in E; subst end.
  cbn [pn_offset pn_draws app tl]. split; [reflexivity|]. eexists. split; [reflexivity|].
  assert (Z : is_zero (s_u T s) && is_zero (s_v T s) = true <-> no_wind (s_u T s) (s_v T s)) by (rewrite andb_true_iff, !is_zero_spec; reflexivity).
  destruct (is_zero (s_u T s) && is_zero (s_v T s)) in Z, E1.
  - left. split; [now apply Z|]. congruence.
  - right. split; [intros W; apply Z in W; discriminate|]. destruct (reduce_vectors _ _ _ _ _) as [[[[x y] u] v]|] eqn:ER; [|discriminate]. cbn in E1. apply Ok_inj in E1. subst. eauto 8.
Qed.
(** The wind vectors are not rolled.  They are drawn at the right meridians if
    the labels of the map start at 0.  Full claim: for all center. *)
Theorem C96_vectors_partial : forall K (T : sphfam) (s : state K) hemisphere center pv_max v_max p11 p12 p21 p22,
  summary T s hemisphere center pv_max v_max = Ok [p11; p12; p21; p22] -> pn_offset p12 = Some 0 ->
  Forall (fun d => quiver_shows (s_grid s) (pn_offset p12) d (s_u T s) (s_v T s)) (tl (pn_draws p12))
  /\ (tl (pn_draws p12) = [] <-> no_wind (s_u T s) (s_v T s)).
Proof.
  intros K T s hemi center pm vm p11 p12 p21 p22 H O. destruct (summary_vectors _ _ _ _ _ _ _ _ _ _ H) as [_ [vs [-> [[NW ->]|[NW [x [y [u [v [-> E]]]]]]]]]].
  - split; [constructor|]. split; auto.
  - split; [|split; [discriminate|intros W; contradiction]]. constructor; [|constructor]. rewrite O. eapply quiver_of; [exact E|reflexivity].
Qed.
Print Assumptions C96_vectors_partial.
(** ... which is the case for the default center_lon = 180 *)
Theorem C96_default_center : forall K (T : sphfam) (s : state K) h hemisphere pv_max v_max p11 p12 p21 p22, (1 <= h)%nat -> g_nlon (s_grid s) = (2 * h)%nat ->
  summary T s hemisphere 180 pv_max v_max = Ok [p11; p12; p21; p22] -> pn_offset p12 = Some 0.
Proof.
  intros K T s h hemi pm vm p11 p12 p21 p22 Hh E H. destruct (summary_vectors _ _ _ _ _ _ _ _ _ _ H) as [-> _]. f_equal. unfold roll_lon. cbn [snd].
  set (g := s_grid s) in *. assert (N : (0 < g_nlon g)%nat) by lia.
  pose proof (mid_lt g 180 N) as ML. pose proof (mid_min g 180 N h ltac:(lia)) as MM. rewrite shift_eq.
  assert (C : rmod 180 360 = 180) by (apply (rmod_unique _ _ _ 0); lra). rewrite C in *. set (a := argmin _) in *.
  rewrite !lon_at in MM by (assumption || lia). rewrite E in MM. rewrite mult_INR in MM. cbn [INR] in MM. assert (Hp : 0 < INR h) by (apply lt_0_INR; lia).
  replace (INR h * (360 / ((1 + 1) * INR h)) - 180) with 0 in MM by (field; lra). rewrite Rabs_R0 in MM. pose proof (Rabs_pos (INR a * (360 / ((1 + 1) * INR h)) - 180)) as P.
  assert (Z : INR a * (360 / ((1 + 1) * INR h)) - 180 = 0) by (destruct (Req_dec (INR a * (360 / ((1 + 1) * INR h)) - 180) 0) as [Q|Q]; [exact Q|apply Rabs_pos_lt in Q; lra]).
  assert (Q : INR a = INR h).
  { replace (INR a) with (INR a * (360 / ((1 + 1) * INR h)) * (INR h / 180)) by (field; lra). replace (INR a * (360 / ((1 + 1) * INR h))) with 180 by lra. field. }
  apply INR_eq in Q. rewrite E, Q. replace (2 * h / 2)%nat with h by (rewrite Nat.mul_comm, Nat.div_mul; lia). rewrite Z.sub_diag. unfold py_nth. cbn [Z.ltb Z.compare].
  rewrite lon_at by assumption. cbn. lra.
Qed.
Print Assumptions C96_default_center.
Lemma summary_panels {K} (T : sphfam) (s : state K) hemisphere center pv_max v_max fig : summary T s hemisphere center pv_max v_max = Ok fig ->
  exists p11 p12 p21 p22, fig = [p11; p12; p21; p22].
Proof.
  intros H. unfold summary in H. destruct (roll_lon (g_lon (s_grid s)) center) as [roll offset]. repeat step H. apply Ok_inj in H. subst fig. eauto.
Qed.
Lemma d1_vort2 {K} (s : state K) rs om a b c : s_grid s = d1_grid rs om -> s_pvs s = [a; b; c] -> coef (s_vorticity_spectral d1_family s) 2 = c.
Proof.
  intros Eg Ep. unfold s_vorticity_spectral. rewrite Eg, Ep. rewrite coef_ssub; [|reflexivity|cbn; lia].
  unfold fcor2_spectral, to_spectral. cbn [sph d1_family sh_grdtospec]. unfold d1_analysis, row_cos, row_sin, coef. cbn [nth].
  assert (E : forall i j, (i < 3)%nat -> (j < 4)%nat -> mget (g_fcor2 (d1_grid rs om)) i j = coriolis (d1_grid rs om) (nth i (g_lat (d1_grid rs om)) 0)) by (intros; now apply fcor2_grid).
  rewrite !E by lia. destruct c as [c1 c2]. unfold Cminus, Cplus, Copp. cbn [fst snd]. apply pair_eqC; lra.
Qed.
Lemma d1_v {K} (s : state K) rs om a b c i j : s_grid s = d1_grid rs om -> s_pvs s = [a; b; c] -> (i < 3)%nat -> (j < 4)%nat ->
  mget (s_v d1_family s) i j = rs / 2 * (Re c * d1_slam j + Im c * d1_clam j).
Proof.
  intros Eg Ep Hi Hj. unfold s_v, s_invert_pv, wind. rewrite Eg. cbn [sph d1_family sh_getuv snd as_spectral]. unfold d1_getuv. cbn [snd]. rewrite mget_mat_of by assumption.
  rewrite !coef_szeros, (d1_vort2 s rs om a b c) by assumption. cbn [d1_grid g_rsphere]. cbn. lra.
Qed.
Lemma example_v i j : (i < 3)%nat -> (j < 4)%nat -> mget (s_v d1_family example_state) i j = / 2 * d1_clam j.
Proof. intros Hi Hj. rewrite (d1_v example_state 1 1 (RtoC 0) (RtoC 5) Ci) by (reflexivity || assumption). cbn. lra. Qed.
Theorem C96_vectors_refuted : exists p11 p12 p21 p22, summary d1_family example_state "both" 0 None None = Ok [p11; p12; p21; p22]
  /\ ~ Forall (fun d => quiver_shows (s_grid example_state) (pn_offset p12) d (s_u d1_family example_state) (s_v d1_family example_state)) (tl (pn_draws p12)).
Proof.
  assert (HE : exact_on d1_family (d1_grid 1 1)) by (apply d1_exact; lra).
  pose proof (fields_shaped_exact _ _ _ HE example_on_grid) as FS.
  destruct (proj1 (C97_summary _ d1_family example_state "both" 0 None None ltac:(cbn; lia) ltac:(cbn; lia) FS) (conj I I)) as [fig H].
  destruct (summary_panels _ _ _ _ _ _ _ H) as [p11 [p12 [p21 [p22 ->]]]]. exists p11, p12, p21, p22. split; [exact H|]. intros F.
  destruct FS as [_ [_ [Sv _]]]. change (s_grid example_state) with (d1_grid 1 1) in *. cbn [d1_grid g_nlat g_nlon] in Sv.
  destruct (summary_vectors _ _ _ _ _ _ _ _ _ _ H) as [O [vs [Ev [[[_ NW] _]|[_ [x [y [u [v [-> E]]]]]]]]]]; rewrite Ev in F.
  - specialize (NW (mget (s_v d1_family example_state) 1 0)). rewrite example_v in NW by lia. cbn in NW. apply (in_concat_mget 3 4) with (x := mget (s_v d1_family example_state) 1 0) in Sv as [_ Iv].
    specialize (Iv ltac:(exists 1%nat, 0%nat; repeat split; lia)). rewrite example_v in Iv by lia. cbn in Iv. apply NW in Iv. lra.
  - change (s_grid example_state) with (d1_grid 1 1) in *.
    pose proof (proj2 (C83_row_bounds _ _ _ _ _ _ _ _ _ E) ltac:(cbn; lia)) as U. injection U as -> -> -> ->.
    assert (OO : pn_offset p12 = Some 180).
    { rewrite O. f_equal. unfold roll_lon. cbn [snd]. rewrite shift_eq.
      pose proof (mid_lt (d1_grid 1 1) 0 ltac:(cbn; lia)) as ML. pose proof (mid_min (d1_grid 1 1) 0 ltac:(cbn; lia) 0 ltac:(cbn; lia)) as MM.
      assert (C : rmod 0 360 = 0) by (apply (rmod_unique _ _ _ 0); lra). rewrite C in *. set (a := argmin _) in *. rewrite !lon_at in MM by (exact ML || (cbn; lia)).
      cbn [d1_grid g_nlon] in *. cbn [INR] in MM. rewrite Rmult_0_l, !Rminus_0_r, Rabs_R0 in MM.
      assert (a = 0)%nat as ->.
      { destruct a as [|a]; [reflexivity|]. exfalso. pose proof (pos_INR a) as P. assert (Q : 0 < INR (S a) * (360 / (1 + 1 + 1 + 1))) by (rewrite S_INR; lra). rewrite Rabs_right in MM by (apply Rle_ge, Rlt_le, Q). lra. }
      change (nth 2 (g_lon (d1_grid 1 1)) 0 = 180). rewrite lon_at by (cbn; lia). cbn [d1_grid g_nlon INR]. lra. }
    inversion F as [|? ? Q _]; subst. rewrite OO in Q. destruct Q as [_ Q].
    assert (L : forall j, (j < 4)%nat -> nth j (g_lon (d1_grid 1 1)) 0 = 90 * INR j) by (intros j Hj; rewrite lon_at by exact Hj; cbn [d1_grid g_nlon INR]; lra).
    specialize (Q 1%nat 0%nat 0 (nth 1 (g_lat (d1_grid 1 1)) 0) (/ 2)).
    destruct Q as [r [j [l [Hr [Hj [[m Hm] Hq]]]]]].
    + apply (at2_shaped 0 _ _ _ _ _ _ (lon2_shaped (d1_grid 1 1))). split; [cbn; lia|]. split; [cbn; lia|]. rewrite lon2_get by (cbn; lia). rewrite L by lia. cbn. lra.
    + apply (at2_shaped 0 _ _ _ _ _ _ (lat2_shaped (d1_grid 1 1))). split; [cbn; lia|]. split; [cbn; lia|]. apply lat2_get; cbn; lia.
    + apply (at2_shaped 0 3 4 _ _ _ _ Sv). split; [lia|]. split; [lia|]. change (mget (s_v d1_family example_state) 1 0 = / 2). rewrite example_v by lia. cbn. lra.
    + apply (nth_error_val 0) in Hj as [Hj <-]. rewrite lon_length in Hj. cbn [d1_grid g_nlon] in Hj. rewrite L in Hm by exact Hj.
      apply (at2_shaped 0 3 4 _ _ _ _ Sv) in Hq as [Hr2 [_ Hq]]. change (mget (s_v d1_family example_state) r j = / 2) in Hq. rewrite example_v in Hq by lia.
      assert (IZR (- 2) = IZR (Z.of_nat j + 4 * m)) as Z by (rewrite plus_IZR, mult_IZR, <- INR_IZR_INZ; lra). apply eq_IZR in Z.
      destruct j as [|[|[|[|j]]]]; try lia. cbn in Hq. lra.
Qed.
Print Assumptions C96_vectors_refuted.

Lemma mean_row nr nc f i : shaped nr nc f -> (i < nr)%nat -> vmean (nth i f []) = Rsum (tab nc (fun j => mget f i j)) / INR nc.
Proof.
  intros S Hi. unfold vmean. rewrite (shaped_row nr nc f i [] S Hi). rewrite (nth_ext_tab (nth i f []) 0) at 1. now rewrite (shaped_row nr nc f i [] S Hi).
Qed.
(** The profiles in the first panel: planetary, relative and absolute vorticity *)
Theorem C96_profiles : forall K (T : sphfam) (s : state K) hemisphere center pv_max v_max p11 p12 p21 p22, (0 < g_nlon (s_grid s))%nat -> fields_shaped T s ->
  summary T s hemisphere center pv_max v_max = Ok [p11; p12; p21; p22] ->
  exists pla rel pot u, pn_draws p11 = [DLine (map Fin pla) (map Fin (g_lat (s_grid s))); DLine (map Fin rel) (map Fin (g_lat (s_grid s))); DLine (map Fin pot) (map Fin (g_lat (s_grid s)))]
  /\ pn_draws p21 = [DLine (map Fin u) (map Fin (g_lat (s_grid s)))]
  /\ length pla = g_nlat (s_grid s) /\ length rel = g_nlat (s_grid s) /\ length pot = g_nlat (s_grid s) /\ length u = g_nlat (s_grid s)
  /\ forall i, (i < g_nlat (s_grid s))%nat -> nth i pot 0 = nth i pla 0 + nth i rel 0
     /\ nth i pla 0 = 10000 * coriolis (s_grid s) (nth i (g_lat (s_grid s)) 0) /\ nth i pot 0 = 10000 * vmean (nth i (s_pv T s) [])
     /\ nth i u 0 = vmean (nth i (s_u T s) []).
Proof.
  intros K T s hemi center pm vm p11 p12 p21 p22 N [S1 [S2 _]] H. unfold summary in H. destruct (roll_lon (g_lon (s_grid s)) center) as [roll offset].
  repeat step H. apply Ok_inj in H. injection H as <- _ <- _. cbn [pn_draws]. unfold line. set (g := s_grid s) in *.
  pose proof (fcor2_shaped g) as SF. pose proof (shaped_msub _ _ _ _ S1 SF) as SV. pose proof (times_shaped _ _ 10000 _ SV) as S3. pose proof (times_shaped _ _ 10000 _ S1) as S4.
  do 4 eexists. split; [reflexivity|]. split; [reflexivity|]. rewrite !map_length. unfold g_fcor. rewrite map_length, lat_length.
  change (length (mscale 10000 (s_vorticity T s))) with (length (times 10000 (msub (s_pv T s) (g_fcor2 g)))). change (length (mscale 10000 (s_pv T s))) with (length (times 10000 (s_pv T s))).
  split; [reflexivity|]. split; [apply S3|]. split; [apply S4|]. split; [apply S2|]. intros i Hi.
  rewrite !(nth_map_lt vmean _ _ [] _) by (first [rewrite (proj1 S2)|rewrite (proj1 S3 : length (mscale 10000 (s_vorticity T s)) = _)|rewrite (proj1 S4 : length (mscale 10000 (s_pv T s)) = _)]; exact Hi).
  rewrite (nth_map_lt _ _ _ 0 _) by (rewrite map_length, lat_length; exact Hi). rewrite (nth_map_lt _ _ _ 0 _) by (rewrite lat_length; exact Hi).
  rewrite (mean_row _ _ _ _ (S3 : shaped _ _ (mscale 10000 (s_vorticity T s))) Hi), (mean_row _ _ _ _ (S4 : shaped _ _ (mscale 10000 (s_pv T s))) Hi), (mean_row _ _ (s_pv T s) _ S1 Hi).
  assert (P : 0 < INR (g_nlon g)) by now apply lt_0_INR.
  assert (Ea : Rsum (tab (g_nlon g) (fun j => mget (mscale 10000 (s_pv T s)) i j)) = 10000 * Rsum (tab (g_nlon g) (fun j => mget (s_pv T s) i j))).
  { unfold tab. rewrite <- Rsum_map_scal. apply Rsum_map_ext_in. intros j Hj. apply in_seq in Hj. apply (mget_mscale (g_nlat g) (g_nlon g)); auto; lia. }
  assert (Eb : Rsum (tab (g_nlon g) (fun j => mget (mscale 10000 (s_vorticity T s)) i j)) = 10000 * (Rsum (tab (g_nlon g) (fun j => mget (s_pv T s) i j)) - INR (g_nlon g) * coriolis g (nth i (g_lat g) 0))).
  { transitivity (10000 * Rsum (tab (g_nlon g) (fun j => mget (s_pv T s) i j - coriolis g (nth i (g_lat g) 0)))).
    - unfold tab. rewrite <- Rsum_map_scal. apply Rsum_map_ext_in. intros j Hj. apply in_seq in Hj. rewrite (mget_mscale (g_nlat g) (g_nlon g)) by (auto; lia). f_equal.
      unfold s_vorticity. fold g. rewrite (mget_msub (g_nlat g) (g_nlon g)) by (auto; lia). now rewrite fcor2_grid by (auto; lia).
    - f_equal. unfold tab. rewrite Rsum_map_minus, Rsum_const, seq_length. reflexivity. }
  rewrite Ea, Eb. split; [field; lra|]. split; [ring|]. split; [field; lra|reflexivity].
Qed.
Print Assumptions C96_profiles.

Lemma somes_values (r : vec) : somes (map Some r) = Some r.
Proof. induction r as [|x r IH]; [reflexivity|]. cbn. now rewrite IH. Qed.
Lemma somes_missing (l : list (option R)) : In None l -> somes l = None.
Proof. induction l as [|[x|] l IH]; [contradiction| |reflexivity]. intros [E|E]; [discriminate|]. cbn. now rewrite (IH E). Qed.
(** The profiles of wave_activity: zonalized PV, zonal mean PV and FAWA, which is the
    mean of FALWA along the latitude circle (NaN if FALWA is there) *)
Theorem C96_wave_activity_profiles : forall K (T : sphfam) (s : state K) res rs om nt hemisphere center p11 p12 p21 p22, mk_grid res rs om nt = Ok (s_grid s) -> fields_shaped T s ->
  wave_activity T s hemisphere center = Ok [p11; p12; p21; p22] ->
  exists zl lwa eq zm fw, zonalize (s_grid s) (s_pv T s) LNone "sptrapz" = Ok zl /\ falwa (s_grid s) (s_pv T s) LNone "sptrapz" = Ok lwa
  /\ pn_draws p11 = [DLine (map Fin eq) (map Fin (g_lat (s_grid s))); DLine (map Fin zm) (map Fin (g_lat (s_grid s)))]
  /\ pn_draws p21 = [DLine fw (map Fin (g_lat (s_grid s)))]
  /\ length eq = g_nlat (s_grid s) /\ length zm = g_nlat (s_grid s) /\ length fw = g_nlat (s_grid s)
  /\ forall i, (i < g_nlat (s_grid s))%nat -> nth i eq 0 = 10000 * nth i zl 0 /\ nth i zm 0 = 10000 * vmean (nth i (s_pv T s) [])
     /\ (forall r, nth i lwa [] = map Some r -> nth i fw NaN = Fin (vmean r)) /\ (In None (nth i lwa []) -> nth i fw (Fin 0) = NaN).
Proof.
  intros K T s res rs om nt hemi center p11 p12 p21 p22 Hg [S1 _] H. pose proof (nlon_pos _ _ _ _ _ Hg) as N.
  destruct (zonalized _ _ _ _ _ _ Hg S1) as [zl [EZ LZ]].
  destruct (proj1 (C69_defined _ _ _ _ _ (s_pv T s) LNone "sptrapz" Hg (or_intror eq_refl) S1) I) as [_ [lwa [EF SF]]].
  unfold wave_activity in H. destruct (roll_lon (g_lon (s_grid s)) center) as [roll offset].
  assert (EW : state_fawa (s_grid s) (s_pv T s) = Ok (map nan_mean lwa)) by (unfold state_fawa, mean_falwa; now rewrite EF).
  rewrite EZ, EF, EW in H. cbn [bind] in H. repeat step H. apply Ok_inj in H. injection H as <- _ <- _. cbn [pn_draws]. unfold line, nan_line. set (g := s_grid s) in *.
  pose proof (times_shaped _ _ 10000 _ S1) as S4. exists zl, lwa. do 3 eexists. split; [exact EZ|]. split; [exact EF|]. split; [reflexivity|]. split; [reflexivity|].
  rewrite !map_length. change (length (mscale 10000 (s_pv T s))) with (length (times 10000 (s_pv T s))). split; [exact LZ|]. split; [apply S4|]. split; [apply SF|]. intros i Hi.
  assert (P : 0 < INR (g_nlon g)) by now apply lt_0_INR.
  split; [rewrite (nth_map_lt _ _ _ 0 _) by lia; reflexivity|]. split.
  - rewrite (nth_map_lt vmean _ _ [] _) by (rewrite (proj1 S4 : length (mscale 10000 (s_pv T s)) = _); exact Hi).
    rewrite (mean_row _ _ _ _ (S4 : shaped _ _ (mscale 10000 (s_pv T s))) Hi), (mean_row _ _ (s_pv T s) _ S1 Hi).
    assert (Ea : Rsum (tab (g_nlon g) (fun j => mget (mscale 10000 (s_pv T s)) i j)) = 10000 * Rsum (tab (g_nlon g) (fun j => mget (s_pv T s) i j))).
    { unfold tab. rewrite <- Rsum_map_scal. apply Rsum_map_ext_in. intros j Hj. apply in_seq in Hj. apply (mget_mscale (g_nlat g) (g_nlon g)); auto; lia. }
    rewrite Ea. field. lra.
  - assert (LF : length lwa = g_nlat g) by apply SF. split.
    + intros r Er. rewrite (nth_map_lt _ _ _ None _) by (rewrite map_length; lia). rewrite (nth_map_lt nan_mean _ _ [] _) by lia. rewrite Er. unfold nan_mean. now rewrite somes_values.
    + intros HN. rewrite (nth_map_lt _ _ _ None _) by (rewrite map_length; lia). rewrite (nth_map_lt nan_mean _ _ [] _) by lia. unfold nan_mean. now rewrite somes_missing.
Qed.
Print Assumptions C96_wave_activity_profiles.

(** ** C98: hemispheres *)
Lemma limits hemisphere : shows_hemisphere hemisphere (configure_lat_y hemisphere).
Proof.
  intros y Hy. unfold configure_lat_y, in_north, in_south. cbn [fst snd]. destruct (String.eqb_spec hemisphere "N") as [E|E], (String.eqb_spec hemisphere "S") as [F|F]; subst; try discriminate; (split; [intros H; split; intros Q; try discriminate Q; try contradiction; lra|intros [H1 H2]]); try specialize (H1 eq_refl); try specialize (H2 eq_refl); lra.
Qed.
Theorem C98_summary : forall K (T : sphfam) (s : state K) hemisphere center pv_max v_max fig, summary T s hemisphere center pv_max v_max = Ok fig ->
  length fig = 4%nat /\ Forall (fun p => shows_hemisphere hemisphere (pn_ylim p)) fig.
Proof.
  intros K T s hemi center pm vm fig H. unfold summary in H. destruct (roll_lon (g_lon (s_grid s)) center) as [roll offset]. repeat step H. apply Ok_inj in H. subst fig.
  split; [reflexivity|]. repeat (apply Forall_cons; [apply limits|]). apply Forall_nil.
Qed.
Print Assumptions C98_summary.
Theorem C98_wave_activity : forall K (T : sphfam) (s : state K) hemisphere center fig, wave_activity T s hemisphere center = Ok fig ->
  length fig = 4%nat /\ Forall (fun p => shows_hemisphere hemisphere (pn_ylim p)) fig.
Proof.
  intros K T s hemi center fig H. unfold wave_activity in H. destruct (roll_lon (g_lon (s_grid s)) center) as [roll offset]. repeat step H. apply Ok_inj in H. subst fig.
  split; [reflexivity|]. repeat (apply Forall_cons; [apply limits|]). apply Forall_nil.
Qed.
Print Assumptions C98_wave_activity.
Theorem C98_rwp_diagnostics : forall K (T : sphfam) W (s : state K) hemisphere center v_max rwp_max fig, rwp_diagnostics T W s hemisphere center v_max rwp_max = Ok fig ->
  length fig = 3%nat /\ Forall (fun p => shows_hemisphere hemisphere (pn_ylim p)) fig.
Proof.
  intros K T W s hemi center vm rm fig H. unfold rwp_diagnostics in H. destruct (roll_lon (g_lon (s_grid s)) center) as [roll offset]. repeat step H. apply Ok_inj in H. subst fig.
  split; [reflexivity|]. repeat (apply Forall_cons; [apply limits|]). apply Forall_nil.
Qed.
Print Assumptions C98_rwp_diagnostics.
Theorem C98_waveguides : forall K (T : sphfam) (s : state K) k hemisphere fig, waveguides T s k hemisphere = Ok fig ->
  length fig = 2%nat /\ Forall (fun p => shows_hemisphere hemisphere (pn_ylim p)) fig.
Proof.
  intros K T s k hemi fig H. unfold waveguides in H. repeat step H. apply Ok_inj in H. subst fig.
  split; [reflexivity|]. repeat (apply Forall_cons; [apply limits|]). apply Forall_nil.
Qed.
Print Assumptions C98_waveguides.

Example C98_nonvacuous : shows_hemisphere "N" (0, 90) /\ shows_hemisphere "both" (-90, 90) /\ ~ shows_hemisphere "S" (-90, 90)
  /\ exists fig, summary d1_family example_state "S" 0 None None = Ok fig.
Proof.
  unfold shows_hemisphere, in_north, in_south. cbn [fst snd]. split; [|split; [|split]].
  - intros y Hy. split; [intros Q; split; intros E; [lra|discriminate E]|intros [A _]; specialize (A eq_refl); lra].
  - intros y Hy. split; [intros Q; split; intros E; discriminate E|intros _; lra].
  - intros H. destruct (H 1 ltac:(lra)) as [A _]. destruct (A ltac:(lra)) as [_ B]. specialize (B eq_refl). lra.
  - apply (proj1 (C97_summary _ d1_family example_state "S" 0 None None ltac:(cbn; lia) ltac:(cbn; lia) (fields_shaped_exact _ _ _ (d1_exact 1 1 ltac:(lra)) example_on_grid))). split; exact I.
Qed.

(** ** C99: waveguides *)
Definition requested (k : k_arg) : list ext := match k with KNone => [] | KNumber k => [k] | KMany l => l end.
(** a line is drawn between consecutive points with coordinates *)
Definition is_nan (x : ext) : bool := match x with NaN => true | _ => false end.
Fixpoint segments (pts : list (ext * ext)) : list ((ext * ext) * (ext * ext)) :=
  match pts with
  | p :: (q :: _) as t => (if is_nan (fst p) || is_nan (snd p) || is_nan (fst q) || is_nan (snd q) then [] else [(p, q)]) ++ segments t
  | _ => []
  end.
Definition line_segments (d : draw) : list ((ext * ext) * (ext * ext)) := match d with DLine x y => segments (combine x y) | _ => [] end.
Definition has_ends (w : ext * ext) : bool := negb (is_nan (fst w)) && negb (is_nan (snd w)).

Lemma segments_cons p q t : segments (p :: q :: t) = (if is_nan (fst p) || is_nan (snd p) || is_nan (fst q) || is_nan (snd q) then [] else [(p, q)]) ++ segments (q :: t).
Proof. reflexivity. Qed.
Lemma coords_after k wg : is_nan k = false -> forall p,
  segments (p :: combine (map (fun _ => k) (wg_coords wg)) (wg_coords wg)) = map (fun w => ((k, fst w), (k, snd w))) (filter has_ends wg).
Proof.
  intros Hk. unfold wg_coords. induction wg as [|[x y] wg IH]; intros p; [reflexivity|]. cbn [flat_map app map combine]. specialize (IH (k, y)).
  remember (combine (map (fun _ => k) (flat_map (fun '(x, y) => [NaN; x; y]) wg)) (flat_map (fun '(x, y) => [NaN; x; y]) wg)) as rest.
  rewrite (segments_cons p), (segments_cons (k, NaN)), (segments_cons (k, x)), IH. cbn [fst snd is_nan]. rewrite !orb_true_r, Hk. cbn [orb app filter]. unfold has_ends. cbn [fst snd]. destruct (is_nan x), (is_nan y); reflexivity.
Qed.
Lemma coords_segments k wg : is_nan k = false ->
  line_segments (DLine (map (fun _ => k) (wg_coords wg)) (wg_coords wg)) = map (fun w => ((k, fst w), (k, snd w))) (filter has_ends wg).
Proof.
  intros Hk. unfold line_segments. rewrite <- (coords_after k wg Hk (NaN, NaN)). destruct (combine _ _); reflexivity.
Qed.
(** One line for every requested wavenumber that consists of its waveguides, and
    the stationary wavenumber *)
Theorem C99_lines : forall K (T : sphfam) (s : state K) k hemisphere fig, Forall (fun k => k <> NaN) (requested k) -> waveguides T s k hemisphere = Ok fig ->
  exists p1 p2 lines ks, fig = [p1; p2]
  /\ pn_draws p1 = [DLine (map (fun r => Fin (vmean r)) (s_u T s)) (map Fin (g_lat (s_grid s)))]
  /\ pn_draws p2 = lines ++ [DLine (map (fun z => esub (fst z) (snd z)) ks) (map Fin (g_lat (s_grid s)))]
  /\ state_stationary_wavenumber T s = Ok (KsComplex ks)
  /\ Forall2 (fun k d => exists wg, state_extract_ks_waveguides T s (k, Fin 0) = Ok wg
       /\ line_segments d = map (fun w => ((k, fst w), (k, snd w))) (filter has_ends wg)) (requested k) lines.
Proof.
  intros K T s k hemi fig Hk H. unfold waveguides in H. fold (requested k) in H. repeat step H. apply Ok_inj in H. subst fig.
  destruct a as [|z]; try discriminate E0. apply Ok_inj in E0. subst a0.
  do 4 eexists. split; [reflexivity|]. cbn [pn_draws]. split; [unfold line; now rewrite map_map|]. split; [reflexivity|]. split; [reflexivity|].
  apply Proofs_StateList.res_map_ok in E1. clear - E E1 Hk. revert Hk. induction E1 as [|x d l r Hx H IH]; intros Hk; [constructor|]. inversion Hk as [|? ? N1 N2]; subst. constructor; [|now apply IH].
  unfold state_extract_ks_waveguides. rewrite E. cbn [bind]. destruct (extract_ks_waveguides _ _ _) as [wg|]; [|discriminate Hx]. cbn [bind] in Hx. apply Ok_inj in Hx. subst d.
  exists wg. split; [reflexivity|]. apply coords_segments. destruct x; (reflexivity || congruence).
Qed.
Print Assumptions C99_lines.

(** ** C97: Rossby wave packet diagnostics *)
Lemma values_finite r : finite_rows (values r) = Some r.
Proof.
  induction r as [|l r IH]; [reflexivity|]. cbn. assert (S : somes (map Some l) = Some l) by (induction l as [|x l IHl]; [reflexivity|cbn; now rewrite IHl]). rewrite S. unfold values in IH. now rewrite IH.
Qed.
Lemma values_shaped nr nc r : shaped nr nc (values r) -> shaped nr nc r.
Proof. exact (unsome nr nc r). Qed.
Lemma span_bad a b n : (2 <= n)%nat -> b <= a -> levels_increase (linspace_end a b n) = false.
Proof. apply span_not_increasing. Qed.
Lemma rwp_parts {K} (T : sphfam) W (s : state K) res rs om nt h rows : mk_grid res rs om nt = Ok (s_grid s) -> (1 <= h)%nat -> g_nlon (s_grid s) = (2 * h)%nat ->
  cwt_keeps_length W -> 0 < central_frequency W -> fields_shaped T s -> falwa (s_grid s) (s_pv T s) LNone "sptrapz" = Ok (values rows) ->
  let sh := shaped (g_nlat (s_grid s)) (g_nlon (s_grid s)) in
  exists dwn env filtered, dominant_wavenumber_wavelet W (s_v T s) (s_grid s) (Some (Hann, 40, 10)) = Ok (A2 dwn) /\ sh dwn
  /\ envelope_hilbert (s_v T s) 2 10 = Ok env /\ sh env /\ sh rows /\ filter_by_wavenumber rows (A2 (times 2 dwn)) = Ok filtered /\ sh filtered.
Proof.
  intros Hg H1 Hh WL CF [S1 [S2 [S3 S4]]] EF sh. pose proof (nlon_pos _ _ _ _ _ Hg) as N. pose proof (nlat_gt1' _ _ _ _ _ Hg) as N1. assert (N0 : (0 < g_nlat (s_grid s))%nat) by lia.
  assert (RP : 0 < g_res (s_grid s)) by (pose proof (mk_grid_facts _ _ _ _ _ Hg) as G; rewrite (gf_res _ _ _ _ G); apply G).
  assert (WW : 0 <= 40 /\ 0 <= 10) by lra. destruct (C93_range W (s_grid s) (s_v T s) h (Some (Hann, 40, 10)) WL CF H1 N0 RP Hh S3 WW) as [dwn [ED [SD _]]].
  pose proof (envelope_field h (g_nlat (s_grid s)) (s_v T s) 2 10 H1 ltac:(now rewrite <- Hh)) as EE. rewrite <- Hh in EE.
  destruct (proj1 (C69_defined _ _ _ _ _ (s_pv T s) LNone "sptrapz" Hg (or_intror eq_refl) S1) I) as [_ [lwa [EL SL]]]. rewrite EF in EL. apply Ok_inj in EL. subst lwa. apply values_shaped in SL.
  destruct (C65_value _ _ rows (times 2 dwn) SL (times_shaped _ _ 2 _ SD) N0 N) as [fl [EFl [SFl _]]].
  eexists dwn, _, fl. split; [exact ED|]. split; [exact SD|]. split; [exact EE|]. split; [apply shaped_mat_of|]. auto.
Qed.
(** Even number of longitudes, FALWA without NaN, PV that is not constant and a
    positive end of the common colorbar.  Full claim: for all states. *)
Theorem C97_rwp_partial : forall K (T : sphfam) W (s : state K) res rs om nt h hemisphere center v_max rwp_max rows,
  mk_grid res rs om nt = Ok (s_grid s) -> (1 <= h)%nat -> g_nlon (s_grid s) = (2 * h)%nat ->
  cwt_keeps_length W -> 0 < central_frequency W -> fields_shaped T s -> falwa (s_grid s) (s_pv T s) LNone "sptrapz" = Ok (values rows) ->
  ~ constant_field (g_nlat (s_grid s)) (g_nlon (s_grid s)) (s_pv T s) -> no_or_nonneg v_max ->
  match rwp_max with
  | Some m => 0 < m
  | None => exists env i j, envelope_hilbert (s_v T s) 2 10 = Ok env /\ (i < g_nlat (s_grid s))%nat /\ (j < g_nlon (s_grid s))%nat /\ 0 < mget env i j
  end ->
  exists fig, rwp_diagnostics T W s hemisphere center v_max rwp_max = Ok fig.
Proof.
  intros K T W s res rs om nt h hemi center vm rm rows Hg H1 Hh WL CF FS EF NC V M.
  destruct (rwp_parts T W s _ _ _ _ h rows Hg H1 Hh WL CF FS EF) as [dwn [env [fl [ED [SD [EE [SE [SR [EFl SFl]]]]]]]]].
  destruct FS as [S1 [S2 [S3 S4]]]. pose proof (nlon_pos _ _ _ _ _ Hg) as N. pose proof (nlat_gt1' _ _ _ _ _ Hg) as N1. assert (N0 : (0 < g_nlat (s_grid s))%nat) by lia.
  unfold rwp_diagnostics. pose proof (fun m => rolled_shape (s_grid s) center m N0) as RS. pose proof (fun n m => unless_ok (s_grid s) center n m N0 N) as UO.
  destruct (roll_lon (g_lon (s_grid s)) center) as [roll offset]. cbn [fst] in RS, UO.
  destruct (symmetric_ok (concat (s_v T s)) 10 vm ltac:(lia) (not_empty _ _ _ N0 N S3) V) as [l [El [Ll Il]]]. rewrite El. cbn [bind].
  rewrite contour_accepts by (auto; now apply RS). cbn [bind]. rewrite ED. cbn [bind].
  assert (Q : exists d, (if Req_EM_T (mmin dwn) (mmax dwn) then Ok [] else contour false (g_lon2 (s_grid s)) (g_lat2 (s_grid s)) (some2 (roll dwn)) (Some (map INR (seq 1 10)))) = Ok d).
  { destruct (Req_EM_T _ _); [eauto|]. rewrite contour_accepts; [eauto|now apply RS|cbn; lia|]. apply increasing_spec. intros i Hi. rewrite map_length, seq_length in Hi.
    rewrite !(nth_map_lt _ _ _ 0%nat _) by (rewrite seq_length; lia). rewrite !seq_nth by lia. apply lt_INR. lia. }
  destruct Q as [d ->]. cbn [bind]. rewrite EE. cbn [bind]. rewrite EF. cbn [bind]. rewrite values_finite. cbn [bind].
  change (mscale 2 dwn) with (times 2 dwn). rewrite EFl. cbn [bind].
  assert (H2 : (4 <= by_hemisphere hemi 10 14)%nat) by (destruct (by_hemisphere_cases hemi 10%nat 14%nat) as [-> | ->]; lia).
  set (m := match rm with Some m => m | None => _ end). assert (Mp : 0 < m).
  { unfold m. destruct rm as [m0|]; [exact M|]. destruct M as [e [i [j [Ee [Hi [Hj P]]]]]]. assert (e = env) as -> by congruence.
    apply Rlt_le_trans with (mmax env); [|apply Rmax_l]. eapply Rlt_le_trans; [exact P|]. apply vmax_ge. apply (in_concat_mget _ _ _ _ SE). exists i, j. auto. }
  assert (L6 : (2 <= length (linspace_end 0 m 6))%nat) by (rewrite span_length; lia). pose proof (span_increases 0 m 6 Mp) as I6.
  rewrite contour_accepts by (auto; now apply RS). cbn [bind]. destruct (UO _ _ (Nat.le_trans 2 4 _ ltac:(lia) H2) S4) as [p ->]. cbn [bind].
  rewrite contour_accepts by (auto; now apply RS). cbn [bind].
  destruct (range_cases _ _ _ 1 N0 N S1 ltac:(lra)) as [RC _]. specialize (RC NC).
  assert (E1 : times 1 (s_pv T s) = s_pv T s) by (unfold times; rewrite <- (map_id (s_pv T s)) at 2; apply map_ext; intros r; rewrite <- (map_id r) at 2; apply map_ext; intros x; lra).
  rewrite E1 in RC. destruct (inner_levels_ok _ _ H2 RC) as [L2 I2]. rewrite contour_accepts by (auto; now apply RS). cbn [bind]. eauto.
Qed.
Print Assumptions C97_rwp_partial.
Lemma mmax_const nr nc c : (0 < nr)%nat -> (0 < nc)%nat -> mmax (mat_of nr nc (fun _ _ => c)) = c.
Proof.
  intros N0 N. apply (mmin_mmax nr nc _ c c (shaped_mat_of _ _ _)). split; [|split]; [intros i j Hi Hj; rewrite mget_mat_of by assumption; lra| |]; exists 0%nat, 0%nat; now rewrite mget_mat_of.
Qed.
(** A zonally symmetric flow: the colorbar of the envelope and of the filtered
    FALWA ends at 0 *)
Theorem C97_rwp_refuted : forall K (T : sphfam) W (s : state K) res rs om nt h hemisphere center v_max p,
  mk_grid res rs om nt = Ok (s_grid s) -> is_integer (360 / res) -> (1 <= h)%nat -> g_nlon (s_grid s) = (2 * h)%nat ->
  cwt_keeps_length W -> 0 < central_frequency W -> fields_shaped T s -> no_or_nonneg v_max ->
  s_pv T s = mat_of (g_nlat (s_grid s)) (g_nlon (s_grid s)) (fun i _ => p i) -> (forall i, (S i < g_nlat (s_grid s))%nat -> p (S i) < p i) ->
  (forall i j, (i < g_nlat (s_grid s))%nat -> (j < g_nlon (s_grid s))%nat -> mget (s_v T s) i j = 0) ->
  rwp_diagnostics T W s hemisphere center v_max None = Err ValueError.
Proof.
  intros K T W s res rs om nt h hemi center vm p Hg Hint H1 Hh WL CF FS V EP Hp Hv.
  pose proof (C70_interpolated_partial _ _ _ _ _ p LNone Hg Hint Hp (or_introl eq_refl)) as EF. rewrite <- EP in EF.
  set (rows := mat_of (g_nlat (s_grid s)) (g_nlon (s_grid s)) (fun _ _ => 0)).
  assert (ER : tab (g_nlat (s_grid s)) (fun _ => tab (g_nlon (s_grid s)) (fun _ => Some 0)) = values rows).
  { unfold values, rows, mat_of. rewrite tab_map. apply tab_ext. intros i _. now rewrite tab_map. }
  rewrite ER in EF.
  destruct (rwp_parts T W s _ _ _ _ h rows Hg H1 Hh WL CF FS EF) as [dwn [env [fl [ED [SD [EE [SE [SR [EFl SFl]]]]]]]]].
  destruct FS as [S1 [S2 [S3 S4]]]. pose proof (nlon_pos _ _ _ _ _ Hg) as N. pose proof (nlat_gt1' _ _ _ _ _ Hg) as N1. assert (N0 : (0 < g_nlat (s_grid s))%nat) by lia.
  assert (Env : env = rows).
  { assert (Ev : s_v T s = mat_of (g_nlat (s_grid s)) (2 * h) (fun i => zonal_wave (2 * h) 0 0 0)).
    { rewrite (mat_of_mget _ _ _ S3), Hh. apply mat_of_ext. intros i j Hi Hj. rewrite Hv by (rewrite ?Hh; assumption). unfold zonal_wave. ring. }
    rewrite Ev in EE. rewrite (C67_outside_partial h _ 2 10 (fun _ => 0) (fun _ => 0) (fun _ => 0%nat) H1) in EE by (intros i Hi; split; [lia|unfold in_range; lia]).
    apply Ok_inj in EE. unfold rows. now rewrite Hh. }
  assert (Fl : fl = rows).
  { unfold rows in EFl. rewrite (C65_constants _ _ (fun _ => 0) _ (times_shaped _ _ 2 _ SD) N0 N) in EFl. apply Ok_inj in EFl. symmetry. exact EFl. }
  subst env fl. unfold rwp_diagnostics. pose proof (fun m => rolled_shape (s_grid s) center m N0) as RS.
  destruct (roll_lon (g_lon (s_grid s)) center) as [roll offset]. cbn [fst] in RS.
  destruct (symmetric_ok (concat (s_v T s)) 10 vm ltac:(lia) (not_empty _ _ _ N0 N S3) V) as [l [El [Ll Il]]]. rewrite El. cbn [bind].
  rewrite contour_accepts by (auto; now apply RS). cbn [bind]. rewrite ED. cbn [bind].
  assert (Q : exists d, (if Req_EM_T (mmin dwn) (mmax dwn) then Ok [] else contour false (g_lon2 (s_grid s)) (g_lat2 (s_grid s)) (some2 (roll dwn)) (Some (map INR (seq 1 10)))) = Ok d).
  { destruct (Req_EM_T _ _); [eauto|]. rewrite contour_accepts; [eauto|now apply RS|cbn; lia|]. apply increasing_spec. intros i Hi. rewrite map_length, seq_length in Hi.
    rewrite !(nth_map_lt _ _ _ 0%nat _) by (rewrite seq_length; lia). rewrite !seq_nth by lia. apply lt_INR. lia. }
  destruct Q as [d ->]. cbn [bind]. rewrite EE. cbn [bind]. rewrite EF. cbn [bind]. rewrite values_finite. cbn [bind].
  change (mscale 2 dwn) with (times 2 dwn). rewrite EFl. cbn [bind]. unfold rows at 2 3. rewrite !mmax_const by assumption. rewrite Rmax_left by lra.
  rewrite contour_bad; [reflexivity|now apply RS|]. apply span_not_increasing; [lia|lra].
Qed.
Print Assumptions C97_rwp_refuted.

(** ** Examples *)
Lemma example_shaped : fields_shaped d1_family example_state.
Proof. apply (fields_shaped_exact _ (d1_grid 1 1)); [apply d1_exact; lra|apply example_on_grid]. Qed.
Lemma example_pv i j : (i < 3)%nat -> (j < 4)%nat -> mget (s_pv d1_family example_state) i j = 5 * d1_sphi i - d1_slam j * d1_cphi i.
Proof. intros Hi Hj. unfold s_pv, to_grid. cbn [sph d1_family sh_spectogrd]. unfold d1_synthesis. rewrite mget_mat_of by assumption. unfold coef. cbn. lra. Qed.
Lemma example_not_constant : ~ constant_field 3 4 (s_pv d1_family example_state).
Proof.
  intros [c C]. pose proof (C 0%nat 0%nat ltac:(lia) ltac:(lia)) as E1. pose proof (C 2%nat 0%nat ltac:(lia) ltac:(lia)) as E2. rewrite example_pv in E1, E2 by lia. cbn in E1, E2. lra.
Qed.
Example C96_nonvacuous : (0 < g_nlat (s_grid example_state))%nat /\ (0 < g_nlon (s_grid example_state))%nat /\ fields_shaped d1_family example_state
  /\ mk_grid 90 1 1 (Some 1%Z) = Ok (s_grid example_state) /\ g_nlon (s_grid example_state) = (2 * 2)%nat
  /\ (exists fig, summary d1_family example_state "N" 180 None (Some 3) = Ok fig) /\ exists fig, wave_activity d1_family example_state "both" 0 = Ok fig.
Proof.
  split; [cbn; lia|]. split; [cbn; lia|]. split; [apply example_shaped|]. split; [apply d1_grid_ok; lra|]. split; [reflexivity|]. split.
  - apply C97_summary; try (cbn; lia); [apply example_shaped|]. split; cbn; [exact I|lra].
  - eapply C97_wave_activity_partial; [apply d1_grid_ok; lra|apply example_shaped|apply example_not_constant].
Qed.
Definition resting : state numR := mkState (d1_grid 1 0) (@VNum numR 0) [RtoC 0; RtoC 0; RtoC 0].
Definition rotating : state numR := mkState (d1_grid 1 1) (@VNum numR 0) [RtoC 0; RtoC 5; RtoC 0].
Lemma d1_shaped {K} (s : state K) rs om : s_grid s = d1_grid rs om -> fields_shaped d1_family s.
Proof.
  intros Eg. unfold fields_shaped, s_pv, s_u, s_v, s_streamfunction, s_invert_pv, wind, to_grid. rewrite Eg. cbn [sph d1_family sh_spectogrd sh_getuv d1_grid g_nlat g_nlon]. unfold d1_synthesis, d1_getuv. cbn [fst snd].
  repeat split; try apply (shaped_mat_of 3 4).
Qed.
Lemma rotating_pv : s_pv d1_family rotating = mat_of 3 4 (fun i _ => 5 * d1_sphi i).
Proof. unfold s_pv, to_grid. cbn [sph d1_family sh_spectogrd]. unfold d1_synthesis. apply mat_of_ext. intros i j Hi Hj. unfold coef. cbn. lra. Qed.
Lemma rotating_pv_decr i : (S i < 3)%nat -> 5 * d1_sphi (S i) < 5 * d1_sphi i.
Proof. intros Hi. destruct i as [|[|i]]; [| |lia]; cbn; lra. Qed.
Lemma one_scale_ok : cwt_keeps_length one_scale /\ 0 < central_frequency one_scale.
Proof. split; [intros x s; apply map_length|cbn; lra]. Qed.
Lemma int4 : is_integer (360 / 90).
Proof. exists 4%Z. lra. Qed.
Example C97_nonvacuous :
  wave_activity d1_family resting "both" 180 = Err ValueError
  /\ (exists fig, rwp_diagnostics d1_family one_scale rotating "S" 30 None (Some 1) = Ok fig)
  /\ rwp_diagnostics d1_family one_scale rotating "both" 180 None None = Err ValueError
  /\ summary d1_family rotating "both" 180 (Some (-1)) None = Err ValueError.
Proof.
  assert (NC : ~ constant_field 3 4 (s_pv d1_family rotating)).
  { intros [c C]. rewrite rotating_pv in C. pose proof (C 0%nat 0%nat ltac:(lia) ltac:(lia)) as E1. pose proof (C 2%nat 0%nat ltac:(lia) ltac:(lia)) as E2. rewrite mget_mat_of in E1, E2 by lia. cbn in E1, E2. lra. }
  assert (Gr : mk_grid 90 1 1 (Some 1%Z) = Ok (s_grid rotating)) by (apply d1_grid_ok; lra). destruct one_scale_ok as [WL CF].
  split; [|split; [|split]].
  - eapply C97_wave_activity_refuted; [apply (d1_grid_ok 1 0); lra|apply (d1_shaped _ 1 0); reflexivity|].
    exists 0. intros i j Hi Hj. cbn [resting s_grid d1_grid g_nlat g_nlon] in Hi, Hj. unfold s_pv, to_grid. cbn [sph d1_family sh_spectogrd]. unfold d1_synthesis. rewrite mget_mat_of by assumption. unfold coef. cbn. lra.
  - apply (C97_rwp_partial _ d1_family one_scale rotating 90 1 1 (Some 1%Z) 2 "S" 30 None (Some 1) (mat_of 3 4 (fun _ _ => 0))); auto; try (apply (d1_shaped _ 1 1); reflexivity); try exact I; try lra.
    pose proof (C70_interpolated_partial _ _ _ _ _ (fun i => 5 * d1_sphi i) LNone Gr int4 rotating_pv_decr (or_introl eq_refl)) as EF. change (s_grid rotating) with (d1_grid 1 1) in *. cbn [d1_grid g_nlat g_nlon] in EF. rewrite <- rotating_pv in EF. exact EF.
  - apply (C97_rwp_refuted _ d1_family one_scale rotating 90 1 1 (Some 1%Z) 2 "both" 180 None (fun i => 5 * d1_sphi i)); auto; try apply int4; try (apply (d1_shaped _ 1 1); reflexivity); try exact I; try apply rotating_pv; try exact rotating_pv_decr.
    intros i j Hi Hj. rewrite (d1_v rotating 1 1 (RtoC 0) (RtoC 5) (RtoC 0)) by (reflexivity || assumption). cbn. lra.
  - apply C97_summary; try (cbn; lia); [apply (d1_shaped _ 1 1); reflexivity|]. intros [H _]. cbn in H. lra.
Qed.

Theorem C99_drawn : forall K (T : sphfam) (s : state K) res rs om nt k hemisphere, mk_grid res rs om nt = Ok (s_grid s) -> (5 <= g_nlat (s_grid s))%nat -> fields_shaped T s ->
  exists fig, waveguides T s k hemisphere = Ok fig.
Proof.
  intros K T s res rs om nt k hemi Hg N5 [S1 [S2 _]]. unfold waveguides.
  assert (P : forall f, shaped (g_nlat (s_grid s)) (g_nlon (s_grid s)) f -> profile_of (s_grid s) (A2 f) (map vmean f)).
  { intros f Sf. split; [rewrite map_length; apply Sf|]. right. exists f. split; [reflexivity|]. split; [exact Sf|]. intros i Hi.
    rewrite (nth_map_lt _ _ _ [] _) by (rewrite (proj1 Sf); exact Hi). unfold vmean. rewrite (shaped_row _ _ f i [] Sf Hi). field. apply not_0_INR. pose proof (nlon_pos _ _ _ _ _ Hg). lia. }
  destruct (C72_not_nan _ _ _ _ _ O4 (ONum 4) (A2 (s_u T s)) _ (Some (A2 (s_pv T s))) (/ 1000) Hg ltac:(left; reflexivity) ltac:(exact N5) ltac:(lra) (P _ S2)) as [sq [Es [Ls _]]].
  { intros f Ef. injection Ef as <-. eauto. }
  destruct (C72_variants _ _ _ _ _ _ Es) as [cx [_ [Ec [_ [Lc _]]]]]. unfold state_stationary_wavenumber. rewrite Ec. cbn [bind].
  assert (G : forall x, exists d, (do wg <- extract_ks_waveguides (s_grid s) cx (x, Fin 0); Ok (DLine (map (fun _ => x) (wg_coords wg)) (wg_coords wg))) = Ok d).
  { intros x. unfold extract_ks_waveguides. destruct cx as [|c cx]; [cbn [length] in Lc; lia|]. cbn. eauto. }
  destruct (res_map_total _ (requested k) (fun x _ => G x)) as [r Er]. unfold requested in Er. rewrite Er. cbn [bind]. eauto.
Qed.
Print Assumptions C99_drawn.
(** A transform with made up fields on a grid with five latitudes *)
Definition flat_family : sphfam := fun nlat nlon _ => mkSpharm (fun _ _ => []) (fun _ => mat_of nlat nlon (fun i _ => - INR i)) (fun _ _ => (mat_of nlat nlon (fun _ _ => 1), mat_of nlat nlon (fun _ _ => 0)))
  (fun _ _ _ => ([], [])) (fun _ => ([], [])).
Definition flat_state : state numR := mkState grid45 (@VNum numR 0) [].
Example C99_nonvacuous : mk_grid 45 1 0 None = Ok (s_grid flat_state) /\ (5 <= g_nlat (s_grid flat_state))%nat /\ fields_shaped flat_family flat_state
  /\ Forall (fun k => k <> NaN) (requested (KMany [Fin 2; Fin 3])) /\ exists fig, waveguides flat_family flat_state (KMany [Fin 2; Fin 3]) "N" = Ok fig.
Proof.
  assert (S : fields_shaped flat_family flat_state).
  { unfold fields_shaped, s_pv, s_u, s_v, s_streamfunction, s_invert_pv, wind, to_grid. cbn [flat_state s_grid sph flat_family sh_spectogrd sh_getuv fst snd]. repeat split; try apply (shaped_mat_of 5 8). }
  split; [apply grid45_ok|]. split; [cbn; lia|]. split; [exact S|]. split; [repeat constructor; discriminate|]. apply (C99_drawn _ _ _ 45 1 0 None); [apply grid45_ok|cbn; lia|exact S].
Qed.
