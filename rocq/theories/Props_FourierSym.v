(** Zonal Fourier analysis and filters do not depend on the first longitude: C121. *)
From Coq Require Export String.
From Verif Require Import Base Spec_Fourier Spec_Filter Spec_FourierSym Spec_Sym Spec_Figure Spec_Grid Spec_Spectral Spec_State Spec_Instance Spec_Symmetry Model_Grid Model_State Model_Figure Model_Shortcuts Model_Fourier Model_Filter.
From Verif Require Import Proofs_Base Proofs_Grid Proofs_StateList Proofs_Trig Proofs_Filter Proofs_Quad Proofs_Fourier Proofs_Sym Proofs_FourierSym Props_Falwa Props_Fourier Props_Filter Props_Sym Proofs_State Proofs_Instance Proofs_Symmetry Proofs_SymInst Proofs_Figure Props_Figure Props_Shortcuts Props_Symmetry.
From Verif Require Import Model_Region.
From Coq Require Import List Lia Lra.
Open Scope R_scope.

(** ** C121 *)
(** The dominant wavenumber is the same for every choice of the first longitude and
    of the direction in which longitudes are counted. *)
Theorem C121_dominant : forall nr nc f g smooth kmin kmax p, shaped nr nc f -> (0 < nc)%nat -> circle_symmetry nc p ->
  dominant_wavenumber_fourier (relabel 0 p f) g smooth kmin kmax = dominant_wavenumber_fourier f g smooth kmin kmax.
Proof.
  intros nr nc f g smooth kmin kmax p [_ F] Nc H. unfold dominant_wavenumber_fourier.
  match goal with |- bind ?a _ = bind ?b _ => assert (E : a = b); [|now rewrite E] end.
  induction F as [|x f Lx F IH]; [reflexivity|]. cbn [relabel map res_map]. fold (relabel 0 p f). rewrite IH.
  assert (Nx : x <> []) by (destruct x; [cbn in Lx; lia|discriminate]).
  assert (Ny : reorder 0 p x <> []) by (intros Q; apply (f_equal (@length R)) in Q; rewrite reorder_length in Q; cbn in Q; lia).
  rewrite !power_form, reorder_length by assumption. cbn [bind].
  rewrite (tab_ext _ (wave_power (reorder 0 p x)) (wave_power x)); [reflexivity|]. intros k _. apply power_turned; [exact Nx|now rewrite Lx].
Qed.
Print Assumptions C121_dominant.
(** The restriction to a range of wavenumbers and the envelope turn with the field.
    Missing: an odd number of longitudes (C121_odd_refuted). *)
Theorem C121_restrict_partial : forall h nr f kmin kmax p, (1 <= h)%nat -> shaped nr (2 * h) f -> circle_symmetry (2 * h) p ->
  restrict_fourier_zonal (relabel 0 p f) kmin kmax = on_ok (relabel 0 p) (restrict_fourier_zonal f kmin kmax).
Proof.
  intros h nr f kmin kmax p H1 Sf H. rewrite !(restrict_field h nr) by (auto; now apply relabel_shaped). cbn [on_ok]. f_equal.
  unfold relabel at 2, mat_of. rewrite tab_map. apply tab_ext. intros i Hi.
  unfold relabel. rewrite (nth_map_lt _ _ _ []) by (rewrite (proj1 Sf); exact Hi). apply (restrict_turned h H1 p H). now apply (shaped_row nr).
Qed.
Print Assumptions C121_restrict_partial.
Theorem C121_envelope_partial : forall h nr f kmin kmax p, (1 <= h)%nat -> shaped nr (2 * h) f -> circle_symmetry (2 * h) p ->
  envelope_hilbert (relabel 0 p f) kmin kmax = on_ok (relabel 0 p) (envelope_hilbert f kmin kmax).
Proof.
  intros h nr f kmin kmax p H1 Sf H. pose proof (circle_permutes _ _ H) as P. rewrite !(envelope_field h nr) by (auto; now apply relabel_shaped). cbn [on_ok]. f_equal.
  unfold relabel at 2, mat_of. rewrite tab_map. apply tab_ext. intros i Hi. rewrite reorder_tab by exact P. apply tab_ext. intros j Hj.
  unfold relabel. rewrite (nth_map_lt _ _ _ []) by (rewrite (proj1 Sf); exact Hi). rewrite (restrict_turned h H1 p H) by now apply (shaped_row nr).
  apply (hilbert_turned h H1 p H); [apply tab_length|exact Hj].
Qed.
Print Assumptions C121_envelope_partial.
(** So does the field filtered with a field or a profile of wavenumbers. *)
Theorem C121_filter : forall nr nc f p, shaped nr nc f -> (0 < nr)%nat -> (0 < nc)%nat -> circle_symmetry nc p ->
  (forall k, shaped nr nc k -> filter_by_wavenumber (relabel 0 p f) (A2 (relabel 0 p k)) = on_ok (relabel 0 p) (filter_by_wavenumber f (A2 k)))
  /\ (forall k, filter_by_wavenumber (relabel 0 p f) (A1 k) = on_ok (relabel 0 p) (filter_by_wavenumber f (A1 k))).
Proof.
  intros nr nc f p Sf Nr Nc H. pose proof (circle_permutes _ _ H) as P.
  assert (X : forall k, shaped nr nc k -> filter_by_wavenumber (relabel 0 p f) (A2 (relabel 0 p k)) = on_ok (relabel 0 p) (filter_by_wavenumber f (A2 k))).
  { intros k Sk. rewrite !(by_wavenumber_value nr nc) by (auto; now apply relabel_shaped). cbn [on_ok]. f_equal.
    unfold relabel at 3, mat_of. rewrite tab_map. apply tab_ext. intros i Hi. rewrite reorder_tab by exact P. apply tab_ext. intros j Hj.
    assert (Lf := shaped_row nr nc f i [] Sf Hi). assert (Lk := shaped_row nr nc k i [] Sk Hi).
    unfold mget, relabel. rewrite !(nth_map_lt _ _ _ []) by (rewrite ?(proj1 Sf), ?(proj1 Sk); exact Hi). rewrite reorder_nth by lia.
    apply hann_turned; [intros E; rewrite E in Lf; cbn in Lf; lia|now rewrite Lf|lia]. }
  split; [exact X|]. intros k. destruct (Nat.eq_dec (length k) nr) as [Lk|Lk].
  - rewrite !(C65_profile nr nc) by (auto; now apply relabel_shaped). rewrite <- X by apply shaped_mat_of. do 2 f_equal.
    unfold relabel, mat_of. rewrite tab_map. apply tab_ext. intros i Hi. now rewrite reorder_tab.
  - rewrite !C65_profile_size; [reflexivity|now rewrite (proj1 Sf)|unfold relabel; now rewrite map_length, (proj1 Sf)].
Qed.
Print Assumptions C121_filter.

Lemma rotate_symmetry n : circle_symmetry n (fun j => ((j + 1) mod n)%nat).
Proof. exists 1%nat. left. intros j _. now rewrite Nat.add_comm. Qed.
Lemma somes_spec l : match somes l with Some v => l = map Some v | None => In (@None R) l end.
Proof. induction l as [|[a|] l IH]; cbn; auto. destruct (somes l); cbn; [now rewrite IH|now right]. Qed.
Lemma finite_rows_none m : finite_rows m = None <-> Exists (fun r => In (@None R) r) m.
Proof.
  induction m as [|r m IH]; cbn; [split; [discriminate|intros X; inversion X]|]. pose proof (somes_spec r) as S. destruct (somes r) as [v|].
  - destruct (finite_rows m) as [b|]; split; intros X; try discriminate X.
    + inversion X as [? ? Q|? ? Q]; subst; [apply in_map_iff in Q; destruct Q as [? [Q _]]; discriminate Q|now apply IH in Q].
    + right. now apply IH.
    + reflexivity.
  - split; [intros _; now left|reflexivity].
Qed.
(** Phase-filtered wave activity and envelope of the northward wind of a State. *)
Theorem C121_state : forall K T g res rs om nt, mk_grid res rs om nt = Ok g -> exact_on T g -> rotates T g ->
  forall s : state K, s_grid s = g -> length (s_pvs s) = nspec (g_ntrunc g) ->
  falwa_filtered T (rotated s) = on_ok (rotate (g_nlon g)) (falwa_filtered T s)
  /\ ((exists h, g_nlon g = 2 * h)%nat -> v_envelope_hilbert T (rotated s) = on_ok (rotate (g_nlon g)) (v_envelope_hilbert T s)).
Proof.
  intros K T g res rs om nt Hg H HR s G L. destruct (proj1 (C111_fields K T g res rs om nt Hg H s G L) HR) as [EP [_ EV]].
  assert (SP : shaped (g_nlat g) (g_nlon g) (s_pv T s)) by (unfold s_pv; rewrite G; apply (B_shape T g H)).
  assert (SV : shaped (g_nlat g) (g_nlon g) (s_v T s)) by (unfold s_v, s_invert_pv, wind; rewrite G; apply (et_wind_shape _ _ _ _ H)).
  pose proof (gf_nlon4 _ _ _ _ (mk_grid_facts _ _ _ _ _ Hg)) as N4. pose proof (gf_nlat3 _ _ _ _ (mk_grid_facts _ _ _ _ _ Hg)) as N3.
  set (p := fun j => ((j + 1) mod g_nlon g)%nat). assert (C : circle_symmetry (g_nlon g) p) by apply rotate_symmetry. pose proof (circle_permutes _ _ C) as P.
  assert (GR : s_grid (rotated s) = g) by (unfold rotated; cbn [s_grid]; exact G).
  split.
  - unfold falwa_filtered. rewrite GR, G, EP, EV. unfold rotate. fold p. rewrite (C121_dominant _ _ _ _ _ _ _ _ SV ltac:(lia) C).
    destruct (dominant_wavenumber_fourier (s_v T s) g _ 1 20) as [kd|] eqn:Ek; [|reflexivity]. cbn [bind].
    rewrite (proj2 (C109_falwa _ _ _ _ _ p (s_pv T s) LNone "sptrapz" Hg SP P)).
    destruct (proj1 (C69_defined _ _ _ _ _ (s_pv T s) LNone "sptrapz" Hg (or_intror eq_refl) SP) I) as [_ [lwa [EL SL]]]. rewrite EL. cbn [on_ok bind].
    destruct (finite_rows lwa) as [rows|] eqn:Er.
    + apply finite_rows_values in Er. subst lwa. apply values_shaped in SL.
      assert (EV' : relabel None p (values rows) = values (relabel 0 p rows)).
      { unfold relabel, values. rewrite !map_map. apply map_ext_in. intros r Hr. apply reorder_map. destruct SL as [_ F]. rewrite Forall_forall in F. now rewrite (F r Hr). }
      rewrite EV', values_finite. cbn [bind]. destruct (C121_filter _ _ rows p SL ltac:(lia) ltac:(lia) C) as [X Y].
      destruct kd as [k|k|]; [apply Y| |reflexivity].
      exfalso. unfold dominant_wavenumber_fourier in Ek. destruct (res_map _ _); [|discriminate]. cbn [bind] in Ek. unfold filter_meridional in Ek.
      destruct (window_of g _); [|discriminate]. cbn [bind] in Ek. unfold passert in Ek. destruct (Nat.eqb _ _); discriminate.
    + assert (E2 : finite_rows (relabel None p lwa) = None).
      { apply finite_rows_none in Er. apply finite_rows_none. apply Exists_exists in Er. destruct Er as [r [Hr Nr]]. apply Exists_exists. exists (reorder None p r). split; [now apply in_map|].
        apply (Permutation.Permutation_in None (Permutation.Permutation_sym (reorder_perm None p r ltac:(destruct SL as [_ F]; rewrite Forall_forall in F; now rewrite (F r Hr))))). exact Nr. }
      rewrite E2. reflexivity.
  - intros [h Eh]. unfold v_envelope_hilbert. rewrite EV. unfold rotate. fold p. rewrite Eh in SV, C. apply (C121_envelope_partial h (g_nlat g)); [lia|exact SV|exact C].
Qed.
Print Assumptions C121_state.

(** With an odd number of longitudes the restricted field, which has one longitude
    less, does not turn with the field: a single positive value. *)
Theorem C121_odd_refuted : (exists g, mk_grid 72 1 0 None = Ok g /\ g_nlon g = 5%nat)
  /\ let p := fun j => ((j + 1) mod 5)%nat in circle_symmetry 5 p
     /\ exists a b, restrict_fourier_zonal [[1; 0; 0; 0; 0]] 2 2 = Ok [a] /\ restrict_fourier_zonal (relabel 0 p [[1; 0; 0; 0; 0]]) 2 2 = Ok [b]
        /\ nth 0 a 0 = 1 / 4 /\ (forall j, (j < 4)%nat -> Rabs (nth j a 0) = 1 / 4 /\ Rabs (nth j b 0) < 1 / 4).
Proof.
  split; [eexists; split; [apply (mk_grid_Ok 72 1 0 5 2); lra || lia|reflexivity]|]. cbv zeta. split; [apply rotate_symmetry|].
  set (X := fun x : vec => Rsum (tab 5 (fun j => nth j x 0 * cos (angle 5 2 j)))).
  assert (F : forall x, length x = 5%nat -> exists y, restrict_row 2 2 x = Ok y /\ forall j, (j < 4)%nat -> nth j y 0 = X x * cos (angle 4 2 j) / 4).
  { intros x L. unfold restrict_row, rfft. destruct x as [|x0 x]; [discriminate L|]. rewrite L. cbn [bind]. unfold irfft, keep. rewrite !tab_length.
    change (5 / 2 + 1)%nat with 3%nat. cbn [Nat.sub Nat.mul Nat.add Nat.eqb]. eexists. split; [reflexivity|]. intros j Hj. rewrite tab_nth by exact Hj.
    assert (S2 : sin (angle 4 2 j) = 0).
    { unfold angle. replace (2 * PI * (INR 2 * INR j) / INR 4) with (INR j * PI) by (cbn [INR]; field). rewrite INR_IZR_INZ. apply sin_eq_0_1. now exists (Z.of_nat j). }
    unfold tab at 1. cbn [seq map]. rewrite !tab_nth by lia. cbn [Nat.ltb Nat.leb Nat.add orb Nat.eqb Nat.div Nat.divmod fst]. unfold dft. rewrite L, S2.
    cbn [Rsum fold_right]. fold (X (x0 :: x)). unfold Rdiv. cbn [INR]. field. }
  destruct (F [1; 0; 0; 0; 0] eq_refl) as [a [Ea Ha]]. destruct (F [0; 0; 0; 0; 1] eq_refl) as [b [Eb Hb]].
  assert (C1 : forall j, Rabs (cos (angle 4 2 j)) = 1).
  { intros j. unfold angle. replace (2 * PI * (INR 2 * INR j) / INR 4) with (INR j * PI) by (cbn [INR]; field).
    pose proof (sin2_cos2 (INR j * PI)) as Q. rewrite (INR_IZR_INZ j) in *. rewrite (sin_eq_0_1 (IZR (Z.of_nat j) * PI)) in Q by (now exists (Z.of_nat j)).
    unfold Rsqr in Q. assert (Q2 : cos (IZR (Z.of_nat j) * PI) ^ 2 = 1) by lra. rewrite <- (sqrt_Rsqr_abs _). unfold Rsqr. replace (cos (IZR (Z.of_nat j) * PI) * cos (IZR (Z.of_nat j) * PI)) with 1 by lra. apply sqrt_1. }
  assert (X1 : X [1; 0; 0; 0; 0] = 1).
  { unfold X, tab. cbn [seq map nth Rsum fold_right]. unfold angle. replace (2 * PI * (INR 2 * INR 0) / INR 5) with 0 by (cbn [INR]; field). rewrite cos_0. ring. }
  assert (X2 : Rabs (X [0; 0; 0; 0; 1]) < 1).
  { assert (E : X [0; 0; 0; 0; 1] = cos (angle 5 2 4)) by (unfold X, tab; cbn [seq map nth Rsum fold_right]; ring). rewrite E.
    assert (A : angle 5 2 4 = PI / 5 + PI + 2 * INR 1 * PI) by (unfold angle; cbn [INR]; field). rewrite A, cos_period, neg_cos, Rabs_Ropp.
    pose proof PI_RGT_0 as P0. pose proof (sin_gt_0 (PI / 5) ltac:(lra) ltac:(lra)) as S0. pose proof (sin2_cos2 (PI / 5)) as Q. unfold Rsqr in Q.
    apply Rabs_def1; nra. }
  exists a, b. split; [unfold restrict_fourier_zonal; cbn [res_map]; rewrite Ea; reflexivity|]. split.
  { change (relabel 0 _ [[1; 0; 0; 0; 0]]) with [[0; 0; 0; 0; 1]]. unfold restrict_fourier_zonal. cbn [res_map]. rewrite Eb. reflexivity. }
  split.
  { rewrite Ha by lia. rewrite X1. unfold angle. replace (2 * PI * (INR 2 * INR 0) / INR 4) with 0 by (cbn [INR]; field). rewrite cos_0. field. }
  intros j Hj. rewrite Ha, Hb by exact Hj. unfold Rdiv. rewrite !Rabs_mult, C1, X1, Rabs_R1. rewrite (Rabs_pos_eq (/ 4)) by lra. split; lra.
Qed.
Print Assumptions C121_odd_refuted.

(** A field on six longitudes turned by two and counted backwards. *)
Example C121_nonvacuous : shaped 2 6 [[3; 1; 4; 1; 5; 9]; [2; 6; 5; 3; 5; 8]]
  /\ circle_symmetry 6 (fun j => ((2 + j) mod 6)%nat) /\ circle_symmetry 6 (fun j => ((2 + (6 - j)) mod 6)%nat)
  /\ relabel 0 (fun j => ((2 + (6 - j)) mod 6)%nat) [[3; 1; 4; 1; 5; 9]; [2; 6; 5; 3; 5; 8]] = [[4; 1; 3; 9; 5; 1]; [5; 6; 2; 8; 5; 3]]
  /\ mk_grid 90 1 1 (Some 1%Z) = Ok (d1_grid 1 1) /\ exact_on d1_family (d1_grid 1 1) /\ rotates d1_family (d1_grid 1 1)
  /\ g_nlon (d1_grid 1 1) = (2 * 2)%nat /\ s_grid zonal_example = d1_grid 1 1 /\ length (s_pvs zonal_example) = nspec (g_ntrunc (d1_grid 1 1)).
Proof.
  split; [split; [reflexivity|repeat constructor]|]. split; [exists 2%nat; left; intros j _; reflexivity|]. split; [exists 2%nat; right; intros j _; reflexivity|].
  split; [reflexivity|]. split; [apply d1_grid_ok; lra|]. split; [apply d1_exact; lra|]. split; [apply d1_rotates|]. split; [reflexivity|]. split; reflexivity.
Qed.
