(** Contour levels and wind vectors of the figures: theorems. *)
From Coq Require Export String.
From Verif Require Import Base Spec_Levels Spec_Figure Spec_Grid Spec_Spectral Spec_State Spec_Instance Model_Grid Model_State Model_Plot Model_Figure Proofs_Base Proofs_Grid Proofs_StateList Proofs_Plot Props_Plot Spec_Quad Proofs_Quad Proofs_Falwa Proofs_Spectral Proofs_Wavelet Proofs_State Proofs_Instance Props_State Proofs_Figure Proofs_Zonalize Props_Figure.
From Coquelicot Require Import Complex.
From Verif Require Import Model_Region.
From Coq Require Import List Lia Lra.
Open Scope R_scope.

(** a contour command with given levels *)
Definition drawn (filled : bool) (levels : option vec) (d : draw) : Prop := exists x y z, d = DContour filled x y z levels.
(** lines between the smallest and the largest value of a field, none if it is constant *)
Definition lines_of (nr nc : nat) (f : mat) (n : nat) (ds : list draw) : Prop :=
  (constant_field nr nc f -> ds = [])
  /\ forall lo hi, extremes nr nc f lo hi -> lo < hi -> exists d l, ds = [d] /\ drawn false (Some l) d /\ even_levels lo hi n l.
(** the number for the map of the globe and the number for one hemisphere *)
Definition one_of (hemisphere : string) (globe half : nat) (n : nat) : Prop :=
  (hemisphere = "both"%string -> n = globe) /\ (hemisphere <> "both"%string -> n = half).

Lemma one_of_spec {A} h globe half (f : A -> nat) (a b : A) : f a = globe -> f b = half -> one_of h globe half (f (by_hemisphere h a b)).
Proof.
  intros Ha Hb. unfold by_hemisphere. split; intros E; destruct (String.eqb_spec h "both"); congruence.
Qed.
Lemma even_span lo hi n : even_levels lo hi n (linspace_end lo hi n).
Proof. split; [apply span_length|]. intros k Hk. now apply span_get. Qed.
Lemma inner_span lo hi n : inner_levels lo hi n (removelast (tl (linspace_end lo hi n))).
Proof.
  split; [rewrite inner_length, span_length; lia|]. intros k Hk. rewrite inner_nth by (rewrite span_length; lia). rewrite span_get by lia. reflexivity.
Qed.
Lemma symmetric_spec nr nc f e n l : (0 < nr)%nat -> (0 < nc)%nat -> shaped nr nc f -> symmetric_levels (concat f) n e = Ok l -> symmetric_range nr nc f e n l.
Proof.
  intros N0 N S H. pose proof (not_empty nr nc f N0 N S) as NE. destruct (extremes_of nr nc f N0 N S) as [B [M1 M2]]. unfold mmin, mmax in *.
  assert (Q : exists m, symmetric_levels (concat f) n e = (if Req_EM_T m 0 then Ok [-1; 1] else Ok (linspace_end (- m) m n)) /\ match e with Some e => m = e | None => magnitude nr nc f m end).
  { destruct e as [e|]; [exists e; split; reflexivity|]. exists (Rmax (Rabs (vmin (concat f))) (Rabs (vmax (concat f)))). split.
    - unfold symmetric_levels. destruct (concat f); [congruence|reflexivity].
    - split.
      + intros i j Hi Hj. specialize (B i j Hi Hj). unfold Rmax, Rabs. destruct (Rle_dec _ _); repeat destruct (Rcase_abs _); lra.
      + unfold Rmax. destruct (Rle_dec _ _); [destruct M2 as [i [j [Hi [Hj E]]]]|destruct M1 as [i [j [Hi [Hj E]]]]]; exists i, j; now rewrite E. }
  destruct Q as [m [E Hm]]. exists m. split; [exact Hm|]. rewrite E in H. destruct (Req_EM_T m 0) as [Z|Z]; apply Ok_inj in H; subst l; (split; [intros; try reflexivity; lra|intros; try lra]).
  apply even_span.
Qed.
Lemma extremes_unique nr nc f lo hi lo' hi' : extremes nr nc f lo hi -> extremes nr nc f lo' hi' -> lo = lo' /\ hi = hi'.
Proof.
  intros [B [[i1 [j1 [? [? E1]]]] [i2 [j2 [? [? E2]]]]]] [B' [[i3 [j3 [? [? E3]]]] [i4 [j4 [? [? E4]]]]]].
  pose proof (B i3 j3 ltac:(assumption) ltac:(assumption)). pose proof (B i4 j4 ltac:(assumption) ltac:(assumption)).
  pose proof (B' i1 j1 ltac:(assumption) ltac:(assumption)). pose proof (B' i2 j2 ltac:(assumption) ltac:(assumption)). lra.
Qed.
Lemma unless_spec nr nc x y z f n ds : (0 < nr)%nat -> (0 < nc)%nat -> shaped nr nc f -> (2 <= n)%nat ->
  contour_unless_constant x y z (range_levels f n) = Ok ds -> lines_of nr nc f n ds.
Proof.
  intros N0 N S Hn H. unfold contour_unless_constant, range_levels in H. rewrite span_first, span_last in H by exact Hn.
  pose proof (extremes_of nr nc f N0 N S) as X. split.
  - intros [c C]. destruct X as [_ [[i1 [j1 [? [? E1]]]] [i2 [j2 [? [? E2]]]]]]. rewrite C in E1, E2 by assumption.
    destruct (Req_EM_T _ _) as [_|Q]; [apply Ok_inj in H; congruence|]. exfalso. apply Q. congruence.
  - intros lo hi X' L. destruct (extremes_unique _ _ _ _ _ _ _ X X') as [<- <-]. destruct (Req_EM_T _ _) as [Q|_]; [lra|].
    apply contour_ok in H. subst ds. eexists _, _. split; [reflexivity|]. split; [now eexists _, _, _|apply even_span].
Qed.
Lemma inner_spec nr nc f n lo hi : (0 < nr)%nat -> (0 < nc)%nat -> shaped nr nc f -> extremes nr nc f lo hi -> inner_levels lo hi n (removelast (tl (range_levels f n))).
Proof.
  intros N0 N S X. destruct (extremes_unique _ _ _ _ _ _ _ (extremes_of nr nc f N0 N S) X) as [<- <-]. apply inner_span.
Qed.
Lemma is_drawn f x y z l : drawn f l (DContour f x y z l).
Proof. now eexists _, _, _. Qed.
Lemma at_least_two h n : one_of h 10 14 n -> (4 <= n)%nat.
Proof. intros [A B]. destruct (String.string_dec h "both") as [E|E]; [rewrite (A E)|rewrite (B E)]; lia. Qed.

(** ** C115 *)
Theorem C115_summary : forall K (T : sphfam) (s : state K) hemisphere center pv_max v_max fig,
  (0 < g_nlat (s_grid s))%nat -> (0 < g_nlon (s_grid s))%nat -> fields_shaped T s ->
  summary T s hemisphere center pv_max v_max = Ok fig ->
  let nr := g_nlat (s_grid s) in let nc := g_nlon (s_grid s) in
  exists p11 p12 p21 p22 pvc vectors vc psic pv_levels v_levels n_pv n_psi, fig = [p11; p12; p21; p22]
  /\ pn_draws p12 = pvc :: vectors /\ drawn true (Some pv_levels) pvc
  /\ one_of hemisphere 11 17 n_pv /\ symmetric_range nr nc (times 10000 (s_pv T s)) (option_map (Rmult 10000) pv_max) n_pv pv_levels
  /\ pn_draws p22 = vc :: psic /\ drawn true (Some v_levels) vc /\ symmetric_range nr nc (s_v T s) v_max 10 v_levels
  /\ one_of hemisphere 10 14 n_psi /\ lines_of nr nc (s_streamfunction T s) n_psi psic.
Proof.
  intros K T s hemi center pm vm fig N0 N [S1 [S2 [S3 S4]]] H nr nc. subst nr nc. unfold summary in H.
  destruct (roll_lon (g_lon (s_grid s)) center) as [roll offset].
  repeat step H. apply Ok_inj in H. subst fig.
  repeat match goal with E : contour _ _ _ _ _ = Ok _ |- _ => apply contour_ok in E; subst end.
  pose proof (one_of_spec hemi 10 14 (fun n => n) 10%nat 14%nat eq_refl eq_refl) as O1.
  do 10 eexists. exists (by_hemisphere hemi 11 17)%nat, (by_hemisphere hemi 10 14)%nat. split; [reflexivity|]. cbn [pn_draws app]. split; [reflexivity|].
  split; [apply is_drawn|]. split; [exact (one_of_spec hemi 11 17 (fun n => n) 11%nat 17%nat eq_refl eq_refl)|].
  split.
  { replace (option_map (Rmult 10000) pm) with (option_map (fun m => m * 10000) pm) by (destruct pm; cbn; [f_equal; ring|reflexivity]).
    apply symmetric_spec; [exact N0|exact N|now apply times_shaped|assumption]. }
  split; [reflexivity|]. split; [apply is_drawn|]. split; [now apply symmetric_spec|]. split; [exact O1|].
  eapply unless_spec; try eassumption. apply at_least_two in O1. lia.
Qed.
Print Assumptions C115_summary.

(** Every step-th row and column beginning with step/2, where step is the number
    of latitudes divided by 13 (21 on the maps of a hemisphere) rounded down, at
    least 1 *)
Theorem C115_vectors : forall K (T : sphfam) (s : state K) hemisphere center pv_max v_max p11 p12 p21 p22 x y u v,
  summary T s hemisphere center pv_max v_max = Ok [p11; p12; p21; p22] -> In (DQuiver x y u v) (pn_draws p12) ->
  exists n step, one_of hemisphere 13 21 n /\ step = Nat.max (g_nlat (s_grid s) / n) 1
  /\ kept_at (step / 2) step (g_lon2 (s_grid s)) x /\ kept_at (step / 2) step (g_lat2 (s_grid s)) y
  /\ kept_at (step / 2) step (s_u T s) u /\ kept_at (step / 2) step (s_v T s) v.
Proof.
  intros K T s hemi center pm vm p11 p12 p21 p22 x y u v H I.
  assert (I' : In (DQuiver x y u v) (tl (pn_draws p12))).
  { unfold summary in H. destruct (roll_lon (g_lon (s_grid s)) center) as [roll offset]. repeat step H. apply Ok_inj in H. injection H as <- <- <- <-.
    repeat match goal with E : contour _ _ _ _ _ = Ok _ |- _ => apply contour_ok in E; subst end.
    cbn [pn_draws app tl] in I |- *. destruct I as [I|I]; [discriminate|exact I]. }
  destruct (summary_vectors _ _ _ _ _ _ _ _ _ _ H) as [_ [vs [Ev [[_ W]|[_ [x' [y' [u' [v' [W ER]]]]]]]]]]; rewrite Ev, W in I'; [destruct I'|].
  destruct I' as [I'|[]]. injection I' as -> -> -> ->.
  assert (P : (by_hemisphere hemi 13 21)%Z = Z.of_nat (Z.to_nat (by_hemisphere hemi 13 21)%Z) /\ (1 <= Z.to_nat (by_hemisphere hemi 13 21)%Z)%nat) by (destruct (by_hemisphere_cases hemi 13%Z 21%Z) as [-> | ->]; cbn; lia).
  destruct P as [P1 P2]. set (n := Z.to_nat (by_hemisphere hemi 13 21)%Z) in *. exists n, (Nat.max (g_nlat (s_grid s) / n) 1).
  split; [exact (one_of_spec hemi 13 21 Z.to_nat 13%Z 21%Z eq_refl eq_refl)|]. split; [reflexivity|].
  unfold reduce_vectors in ER. rewrite P1 in ER. destruct (Z.eqb_spec (Z.of_nat n) 0) as [Z|_]; [lia|].
  assert (L : length (g_lat2 (s_grid s)) = g_nlat (s_grid s)).
  { unfold g_lat2. rewrite map_length. apply lat_length. }
  assert (St : spacing_of (length (g_lat2 (s_grid s))) (Z.of_nat n) = Nat.max (g_nlat (s_grid s) / n) 1).
  { unfold spacing_of. rewrite L, <- Nat2Z.inj_div. lia. }
  rewrite St in ER. apply Ok_inj in ER. injection ER as <- <- <- <-. repeat split; intros i j; apply slice2_entry; lia.
Qed.
Print Assumptions C115_vectors.

Theorem C115_wave_activity : forall K (T : sphfam) (s : state K) res rs om nt hemisphere center fig, mk_grid res rs om nt = Ok (s_grid s) -> fields_shaped T s ->
  wave_activity T s hemisphere center = Ok fig ->
  let nr := g_nlat (s_grid s) in let nc := g_nlon (s_grid s) in
  exists p11 p12 p21 p22 zl dev pvc wac pvc2 dev_levels pv_levels n_pv, fig = [p11; p12; p21; p22]
  /\ zonalize (s_grid s) (s_pv T s) LNone "sptrapz" = Ok zl
  /\ pn_draws p12 = [dev; pvc] /\ pn_draws p22 = [wac; pvc2]
  /\ drawn true (Some dev_levels) dev /\ symmetric_range nr nc (mat_of nr nc (fun i j => 10000 * (mget (s_pv T s) i j - nth i zl 0))) None 10 dev_levels
  /\ drawn false (Some pv_levels) pvc /\ drawn false (Some pv_levels) pvc2 /\ drawn true None wac
  /\ one_of hemisphere 10 14 n_pv /\ forall lo hi, extremes nr nc (times 10000 (s_pv T s)) lo hi -> inner_levels lo hi n_pv pv_levels.
Proof.
  intros K T s res rs om nt hemi center fig Hg [S1 [S2 [S3 S4]]] H nr nc. subst nr nc. pose proof (nlon_pos _ _ _ _ _ Hg) as N. pose proof (nlat_gt1' _ _ _ _ _ Hg) as N1.
  assert (N0 : (0 < g_nlat (s_grid s))%nat) by lia.
  destruct (zonalized _ _ _ _ _ _ Hg S1) as [zl0 [EZ LZ]]. unfold wave_activity in H.
  destruct (roll_lon (g_lon (s_grid s)) center) as [roll offset].
  rewrite EZ in H. cbn [bind] in H. rewrite (dev_form _ _ _ _ S1 LZ) in H.
  repeat step H. apply Ok_inj in H. subst fig.
  repeat match goal with E : contour _ _ _ _ _ = Ok _ |- _ => apply contour_ok in E; subst end.
  do 11 eexists. exists (by_hemisphere hemi 10 14)%nat. split; [reflexivity|]. split; [exact EZ|]. cbn [pn_draws app]. split; [reflexivity|]. split; [reflexivity|].
  split; [apply is_drawn|]. split; [apply symmetric_spec; [exact N0|exact N|apply shaped_mat_of|assumption]|].
  split; [apply is_drawn|]. split; [apply is_drawn|]. split; [apply is_drawn|].
  split; [exact (one_of_spec hemi 10 14 (fun n => n) 10%nat 14%nat eq_refl eq_refl)|]. intros lo hi X. apply (inner_spec (g_nlat (s_grid s)) (g_nlon (s_grid s))); try assumption. now apply times_shaped.
Qed.
Print Assumptions C115_wave_activity.

Theorem C115_rwp_diagnostics : forall K (T : sphfam) W (s : state K) hemisphere center v_max rwp_max fig,
  (0 < g_nlat (s_grid s))%nat -> (0 < g_nlon (s_grid s))%nat -> fields_shaped T s ->
  rwp_diagnostics T W s hemisphere center v_max rwp_max = Ok fig ->
  let nr := g_nlat (s_grid s) in let nc := g_nlon (s_grid s) in
  exists p1 p2 p3 vc dwnc envc psic lwac pvc dwn env rows filtered v_levels dwn_levels top rwp_levels pv_levels n, fig = [p1; p2; p3]
  /\ dominant_wavenumber_wavelet W (s_v T s) (s_grid s) (Some (Hann, 40, 10)) = Ok (A2 dwn)
  /\ envelope_hilbert (s_v T s) 2 10 = Ok env
  /\ falwa (s_grid s) (s_pv T s) LNone "sptrapz" = Ok (values rows) /\ filter_by_wavenumber rows (A2 (times 2 dwn)) = Ok filtered
  /\ pn_draws p1 = vc :: dwnc /\ drawn true (Some v_levels) vc /\ symmetric_range nr nc (s_v T s) v_max 10 v_levels
  /\ even_levels 1 10 10 dwn_levels /\ Forall (drawn false (Some dwn_levels)) dwnc
  /\ (mmin dwn = mmax dwn -> dwnc = []) /\ (mmin dwn <> mmax dwn -> length dwnc = 1%nat)
  /\ pn_draws p2 = envc :: psic /\ pn_draws p3 = [lwac; pvc]
  /\ drawn true (Some rwp_levels) envc /\ drawn true (Some rwp_levels) lwac
  /\ match rwp_max with Some m => top = m | None => largest_of_both nr nc env filtered top end /\ even_levels 0 top 6 rwp_levels
  /\ one_of hemisphere 10 14 n /\ lines_of nr nc (s_streamfunction T s) n psic
  /\ drawn false (Some pv_levels) pvc /\ forall lo hi, extremes nr nc (s_pv T s) lo hi -> inner_levels lo hi n pv_levels.
Proof.
  intros K T W s hemi center vm rm fig N0 N [S1 [S2 [S3 S4]]] H nr nc. subst nr nc. unfold rwp_diagnostics in H.
  assert (CS : forall f l m d, contour f (g_lon2 (s_grid s)) (g_lat2 (s_grid s)) (some2 (fst (roll_lon (g_lon (s_grid s)) center) m)) l = Ok d -> shaped (g_nlat (s_grid s)) (g_nlon (s_grid s)) m).
  { intros f l m d E. apply contour_shape in E. apply shapedb_spec in E. rewrite (proj1 (lon2_shaped _)), (shaped_ncols _ _ _ (lon2_shaped _) N0) in E. apply unsome in E. exact (unrolled 0 _ _ _ m E). }
  destruct (roll_lon (g_lon (s_grid s)) center) as [roll offset]. cbn [fst] in CS.
  repeat step H. apply Ok_inj in H. subst fig.
  destruct a1 as [|dwn|]; try discriminate E2. apply Ok_inj in E2. subst a2.
  destruct (finite_rows a5) as [rows|] eqn:Hr; [|discriminate E6]. apply Ok_inj in E6. subst a6. apply finite_rows_values in Hr. subst a5.
  pose proof (CS _ _ _ _ E8) as Se. pose proof (CS _ _ _ _ E10) as Sf.
  apply contour_ok in E0, E8, E10, E11. subst.
  pose proof (one_of_spec hemi 10 14 (fun n => n) 10%nat 14%nat eq_refl eq_refl) as O1.
  exists (mkPanel ([DContour true (g_lon2 (s_grid s)) (g_lat2 (s_grid s)) (some2 (roll (s_v T s))) (Some a)] ++ a3) (Some offset) (configure_lat_y hemi)).
  do 8 eexists. exists dwn, a4, rows, a7, a, (map INR (seq 1 10)), (match rm with Some m => m | None => Rmax (mmax a4) (mmax a7) end). do 2 eexists. exists (by_hemisphere hemi 10 14)%nat.
  split; [reflexivity|]. split; [reflexivity || assumption|]. split; [reflexivity || assumption|]. split; [reflexivity || assumption|]. split; [reflexivity || assumption|]. cbn [pn_draws app].
  split; [reflexivity|]. split; [apply is_drawn|]. split; [now apply symmetric_spec|].
  split.
  { split; [reflexivity|]. intros k Hk. do 10 (destruct k as [|k]; [cbn; lra|]). lia. }
  assert (D : Forall (drawn false (Some (map INR (seq 1 10)))) a3 /\ (mmin dwn = mmax dwn -> a3 = []) /\ (mmin dwn <> mmax dwn -> length a3 = 1%nat)).
  { destruct (Req_EM_T _ _) as [Q|Q] in E3.
    - apply Ok_inj in E3. subst a3. split; [constructor|]. split; [reflexivity|]. intros; contradiction.
    - apply contour_ok in E3. subst a3. split; [constructor; [apply is_drawn|constructor]|]. split; [intros; contradiction|reflexivity]. }
  split; [apply D|]. split; [apply D|]. split; [apply D|]. split; [reflexivity|]. split; [reflexivity|]. split; [apply is_drawn|]. split; [apply is_drawn|].
  split.
  { destruct rm as [m|]; [reflexivity|].
    destruct (extremes_of _ _ _ N0 N Se) as [B1 [_ [i1 [j1 [? [? X1]]]]]]. destruct (extremes_of _ _ _ N0 N Sf) as [B2 [_ [i2 [j2 [? [? X2]]]]]]. split.
    - intros i j Hi Hj. pose proof (Rmax_l (mmax a4) (mmax a7)). pose proof (Rmax_r (mmax a4) (mmax a7)). specialize (B1 i j Hi Hj). specialize (B2 i j Hi Hj). lra.
    - unfold Rmax. destruct (Rle_dec _ _); [exists i2, j2|exists i1, j1]; auto. }
  split; [apply even_span|]. split; [exact O1|]. split; [eapply unless_spec; try eassumption; apply at_least_two in O1; lia|]. split; [apply is_drawn|].
  intros lo hi X. now apply (inner_spec (g_nlat (s_grid s)) (g_nlon (s_grid s))).
Qed.
Print Assumptions C115_rwp_diagnostics.

(** A wave-like flow (C96_nonvacuous: these figures can be drawn) and the grid
    with 2.5 degrees: vectors at every 5th (3rd) latitude *)
Example C115_nonvacuous : (0 < g_nlat (s_grid example_state))%nat /\ (0 < g_nlon (s_grid example_state))%nat /\ fields_shaped d1_family example_state
  /\ mk_grid 90 1 1 (Some 1%Z) = Ok (s_grid example_state)
  /\ (exists p11 p12 p21 p22 x y u v, summary d1_family example_state "N" 180 None (Some 3) = Ok [p11; p12; p21; p22] /\ In (DQuiver x y u v) (pn_draws p12))
  /\ (exists fig, wave_activity d1_family example_state "both" 0 = Ok fig)
  /\ (exists lo hi, extremes 3 4 (s_pv d1_family example_state) lo hi /\ lo < hi)
  /\ Nat.max (73 / 13) 1 = 5%nat /\ Nat.max (73 / 21) 1 = 3%nat.
Proof.
  destruct C96_nonvacuous as [N0 [N [FS [Hg [_ [[fig H] WA]]]]]]. split; [exact N0|]. split; [exact N|]. split; [exact FS|]. split; [exact Hg|].
  split; [|split; [exact WA|split; [|split; reflexivity]]].
  - destruct (summary_panels _ _ _ _ _ _ _ H) as [p11 [p12 [p21 [p22 ->]]]].
    destruct (summary_vectors _ _ _ _ _ _ _ _ _ _ H) as [O [vs [Ev [[[_ NW] _]|[_ [x [y [u [v [-> E]]]]]]]]]].
    + exfalso. specialize (NW (mget (s_v d1_family example_state) 1 0)). rewrite example_v in NW by lia. destruct FS as [_ [_ [Sv _]]].
      assert (I : In (/ 2 * d1_clam 0) (concat (s_v d1_family example_state))) by (apply (in_concat_mget 3 4 _ _ Sv); exists 1%nat, 0%nat; rewrite example_v by lia; auto).
      specialize (NW I). cbn in NW. lra.
    + exists p11, p12, p21, p22, x, y, u, v. split; [exact H|]. destruct (pn_draws p12) as [|d ds]; [discriminate Ev|]. cbn in Ev. subst ds. right. now left.
  - destruct FS as [S1 _]. exists (mmin (s_pv d1_family example_state)), (mmax (s_pv d1_family example_state)). pose proof (extremes_of 3 4 _ ltac:(lia) ltac:(lia) S1) as X. split; [exact X|].
    destruct X as [B _]. generalize dependent (mmin (s_pv d1_family example_state)). generalize (mmax (s_pv d1_family example_state)). intros hi lo B. pose proof (B 0%nat 0%nat ltac:(lia) ltac:(lia)) as Q1. pose proof (B 2%nat 0%nat ltac:(lia) ltac:(lia)) as Q2. rewrite example_pv in Q1, Q2 by lia. cbn in Q1, Q2. lra.
Qed.
