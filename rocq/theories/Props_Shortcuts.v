(** Diagnostic shortcuts of State: theorems. *)
From Coq Require Export String.
From Verif Require Import Base Spec_Fourier Spec_Filter Spec_Figure Spec_Grid Spec_Spectral Spec_State Spec_Instance Model_Grid Model_State Model_Figure Model_Shortcuts Proofs_Base Proofs_Grid Proofs_Trig Proofs_Filter Spec_Quad Proofs_Quad Proofs_Zonalize Proofs_Falwa Props_Falwa Props_Fourier Props_Filter Proofs_State Proofs_Instance Props_State Proofs_Figure Props_Figure.
From Coquelicot Require Import Complex.
From Verif Require Import Model_Region.
From Coq Require Import List Lia Lra.
Open Scope R_scope.

Lemma hann_mean_total h row : (0 < h)%nat -> Rsum (tab (length row) (hann_mean h row)) = Rsum row.
Proof.
  intros H. unfold hann_mean. rewrite Rsum_tab_swap.
  rewrite (tab_ext _ _ (fun m => hann_weight h m * Rsum row)).
  - rewrite Rsum_tab_scal_r. pose proof (weight_sum Hann h) as U. cbn [weight_of] in U. rewrite U. ring.
  - intros m _. rewrite Rsum_tab_scal, <- hann_cos by exact H. f_equal. rewrite (Rsum_ext_tab row).
    pose (F := fun k => nth (Z.to_nat (k mod Z.of_nat (length row))) row 0).
    rewrite (tab_ext _ (fun i => nth i row 0) (fun i => F (Z.of_nat i))).
    2:{ intros i Hi. unfold F. rewrite Z.mod_small, Nat2Z.id by lia. reflexivity. }
    rewrite <- (Rsum_period (length row) F) with (s := (Z.of_nat m - Z.of_nat h)%Z).
    + f_equal.
    + intros k. unfold F. destruct (length row) as [|n]; [cbn; now rewrite Z.add_0_r|]. do 2 f_equal.
      rewrite <- (Z.mul_1_l (Z.of_nat (S n))) at 1. apply Z_mod_plus_full.
Qed.
Lemma wave_points_le n k : (2 <= n)%nat -> (wave_points n k <= n)%nat.
Proof.
  intros N. assert (P : 2 <= INR n) by (change 2 with (INR 2); now apply le_INR). unfold wave_points. set (c := Rmin _ _).
  assert (C : 1 <= c) by (unfold c; apply Rmin_glb; [apply Rmax_r|lra]).
  assert (Q : INR n / c <= INR n). { apply (Rmult_le_reg_r c); [lra|]. unfold Rdiv. rewrite Rmult_assoc, Rinv_l by lra. assert (INR n * 1 <= INR n * c) by (apply Rmult_le_compat_l; lra). lra. }
  destruct (base_Int_part (INR n / c)) as [B _]. assert (Z : (Int_part (INR n / c) <= Z.of_nat n)%Z) by (apply le_IZR; rewrite <- INR_IZR_INZ; lra). lia.
Qed.
Lemma finite_falwa_values g pv f : mean_falwa g pv LNone "sptrapz" = Ok (map Some f) -> exists rows, falwa g pv LNone "sptrapz" = Ok (values rows) /\ map vmean rows = f.
Proof.
  unfold mean_falwa. destruct (falwa g pv LNone "sptrapz") as [x|]; [|discriminate]. cbn [bind]. intros E. apply Ok_inj in E.
  cut (exists rows, x = values rows /\ map vmean rows = f); [intros [r [-> Q]]; eauto|].
  revert f E. induction x as [|l x IH]; intros [|y f] E; try discriminate; [exists []; auto|]. cbn [map] in E. injection E as E1 E2.
  destruct (IH f E2) as [r [-> <-]]. unfold nan_mean in E1. destruct (somes l) as [v|] eqn:S; [|discriminate]. cbn in E1. injection E1 as <-.
  exists (v :: r). split; [|reflexivity]. cbn [values map]. f_equal. clear - S. revert v S. induction l as [|[a|] l IH]; intros v S; cbn in S; [injection S as <-; reflexivity| |discriminate].
  destruct (somes l) as [t|]; [|discriminate]. injection S as <-. cbn. f_equal. now apply IH.
Qed.
Lemma falwa_values_shaped res rs om nt g pv rows : mk_grid res rs om nt = Ok g -> shaped (g_nlat g) (g_nlon g) pv ->
  falwa g pv LNone "sptrapz" = Ok (values rows) -> shaped (g_nlat g) (g_nlon g) rows /\ forall i, (i < g_nlat g)%nat -> Forall (fun x => 0 <= x) (nth i rows []).
Proof.
  intros Hg Hp EF. destruct (proj1 (C69_defined _ _ _ _ _ pv LNone "sptrapz" Hg (or_intror eq_refl) Hp) I) as [[rw [yy [EC _]]] [lwa [EL SL]]].
  rewrite EF in EL. apply Ok_inj in EL. subst lwa. apply values_shaped in SL. split; [exact SL|]. intros i Hi. apply Forall_forall. intros x Hx.
  apply (In_nth _ _ 0) in Hx. destruct Hx as [j [Hj <-]]. rewrite (shaped_row _ _ _ _ [] SL Hi) in Hj.
  pose proof (C69_interpolated_partial _ _ _ _ _ pv LNone "sptrapz" rw yy _ Hg (or_intror eq_refl) Hp EC EF i j Hi Hj) as Q.
  unfold values in Q. rewrite (nth_map_lt _ _ _ []) in Q by (rewrite (proj1 SL); exact Hi). rewrite (nth_map_lt _ _ _ 0) in Q by (rewrite (shaped_row _ _ _ _ [] SL Hi); exact Hj). exact Q.
Qed.
Lemma smooth_profile g k : length k = g_nlat g -> 0 < g_dlon g -> exists sm, filter_meridional g (A1 k) (ByName Boxcar 10) = Ok (A1 sm) /\ length sm = g_nlat g /\ (forall c, k = repeat c (g_nlat g) -> sm = k).
Proof.
  intros L D. destruct (proj1 (C62_returns g Boxcar 10)) as [w Hw]; [apply Rle_trans with 0; [lra|]; apply Rlt_le, Rdiv_lt_0_compat; lra|].
  destruct (C62_window g Boxcar 10 w Hw) as [_ [_ [_ [U _]]]]. rewrite (C64_by_name g (A1 k) Boxcar 10 w Hw).
  unfold filter_meridional, window_of. cbn [bind]. unfold passert. rewrite L, Nat.eqb_refl. eexists. split; [reflexivity|]. split; [rewrite conv_length; exact L|].
  intros c ->. pose proof (C64_constants g c w U) as Q. unfold filter_meridional, window_of, passert in Q. cbn [bind] in Q. rewrite repeat_length, Nat.eqb_refl in Q. now injection Q.
Qed.
Lemma nlon_ge2 res rs om nt g : mk_grid res rs om nt = Ok g -> (2 <= g_nlon g)%nat.
Proof. intros Hg. pose proof (gf_nlon4 _ _ _ _ (mk_grid_facts _ _ _ _ _ Hg)). lia. Qed.

(** C103.  Wave activity without NaN (the other case is C69).  Full claim: the
    window extends over one wavelength of the doubled dominant wavenumber to both
    sides (refuted below). *)
Theorem C103_filtered_partial : forall K (T : sphfam) (s : state K) res rs om nt rows, mk_grid res rs om nt = Ok (s_grid s) -> fields_shaped T s ->
  falwa (s_grid s) (s_pv T s) LNone "sptrapz" = Ok (values rows) ->
  exists out, falwa_filtered T s = Ok out /\ shaped (g_nlat (s_grid s)) (g_nlon (s_grid s)) out
  /\ forall i, (i < g_nlat (s_grid s))%nat ->
     (exists h, (2 <= h <= g_nlon (s_grid s))%nat /\ forall j, (j < g_nlon (s_grid s))%nat -> mget out i j = hann_mean h (nth i rows []) j)
     /\ vmean (nth i out []) = vmean (nth i rows [])
     /\ (forall lo hi, within lo hi (nth i rows []) -> within lo hi (nth i out []))
     /\ Forall (fun x => 0 <= x) (nth i out []).
Proof.
  intros K T s res rs om nt rows Hg [S1 [S2 [S3 S4]]] EF. set (g := s_grid s) in *.
  pose proof (nlon_pos _ _ _ _ _ Hg) as N. pose proof (nlat_gt1' _ _ _ _ _ Hg) as N1. assert (N0 : (0 < g_nlat g)%nat) by lia. pose proof (nlon_ge2 _ _ _ _ _ Hg) as N2.
  destruct (falwa_values_shaped _ _ _ _ _ _ _ Hg S1 EF) as [SR PR].
  assert (HK : (1 <= g_nlon g / 2)%nat) by (apply Nat.div_le_lower_bound; lia).
  destruct (C68_offset_partial _ _ (s_v T s) g 1 20 S3 N ltac:(lia) HK) as [ks [Ek [Lk _]]].
  assert (Dl : 0 < g_dlon g) by (pose proof (mk_grid_facts _ _ _ _ _ Hg) as G; unfold g_dlon; rewrite (gf_res _ _ _ _ G); apply G).
  destruct (smooth_profile g (map INR ks)) as [sm [Es [Ls _]]]; [now rewrite map_length|exact Dl|].
  unfold falwa_filtered. fold g. unfold dominant_wavenumber_fourier in Ek |- *.
  destruct (res_map _ (s_v T s)) as [kd|]; [|discriminate Ek]. cbn [bind] in Ek |- *. apply Ok_inj in Ek. injection Ek as ->. rewrite Es. cbn [bind]. rewrite EF. cbn [bind]. rewrite values_finite. cbn [bind].
  assert (L2 : length (vscale 2 sm) = g_nlat g) by (unfold vscale; now rewrite map_length).
  rewrite (C65_profile (g_nlat g) (g_nlon g) rows (vscale 2 sm) SR N0 L2).
  rewrite (by_wavenumber_value (g_nlat g) (g_nlon g)) by (auto; apply shaped_mat_of). eexists. split; [reflexivity|]. split; [apply shaped_mat_of|]. intros i Hi.
  set (k := nth i (vscale 2 sm) 0). set (h := wave_points (g_nlon g) k). destruct (wave_points_ge (g_nlon g) k N) as [H2 _].
  assert (Lr : length (nth i rows []) = g_nlon g) by now apply (shaped_row (g_nlat g)).
  assert (Row : nth i (mat_of (g_nlat g) (g_nlon g) (fun i j => hann_mean (wave_points (g_nlon g) (mget (mat_of (g_nlat g) (g_nlon g) (fun i _ => nth i (vscale 2 sm) 0)) i j)) (nth i rows []) j)) [] = tab (g_nlon g) (hann_mean h (nth i rows []))).
  { unfold mat_of at 1. rewrite tab_nth by exact Hi. apply tab_ext. intros j Hj. now rewrite mget_mat_of by assumption. }
  split; [|rewrite Row; split; [|split]].
  - exists h. split; [split; [exact H2|now apply wave_points_le]|]. intros j Hj. rewrite !mget_mat_of by assumption. reflexivity.
  - unfold vmean. rewrite tab_length, Lr. f_equal. rewrite <- Lr at 1. apply hann_mean_total. unfold h. lia.
  - intros lo hi W. apply Forall_forall. intros x Hx. apply tab_in in Hx. destruct Hx as [j [Hj ->]]. apply hann_mean_range; [unfold h; lia| |exact W]. intros E. rewrite E in Lr. cbn in Lr. lia.
  - apply Forall_forall. intros x Hx. apply tab_in in Hx. destruct Hx as [j [Hj ->]].
    assert (W : within 0 (vmax (nth i rows [])) (nth i rows [])) by (apply Forall_forall; intros x Hx; split; [exact (proj1 (Forall_forall _ _) (PR i Hi) x Hx)|now apply vmax_ge]).
    apply (hann_mean_range h _ j _ _ ltac:(unfold h; lia)) in W; [tauto|]. intros E. rewrite E in Lr. cbn in Lr. lia.
Qed.
Print Assumptions C103_filtered_partial.

(** PV that is not constant, on grids that divide the circle evenly: FALWA has no
    NaN, and the zonal mean of the filtered FALWA is FAWA *)
Theorem C103_zonal_mean : forall K (T : sphfam) (s : state K) res rs om nt lo hi, mk_grid res rs om nt = Ok (s_grid s) -> is_integer (360 / res) -> fields_shaped T s ->
  extremes (g_nlat (s_grid s)) (g_nlon (s_grid s)) (s_pv T s) lo hi -> lo < hi ->
  exists out, falwa_filtered T s = Ok out /\ state_fawa (s_grid s) (s_pv T s) = Ok (map Some (map vmean out)).
Proof.
  intros K T s res rs om nt lo hi Hg Hint FS X Hlt.
  destruct (C71_sptrapz_partial _ _ _ _ _ _ lo hi LNone Hg Hint (proj1 FS) X Hlt (or_introl eq_refl)) as [f [_ [Ef Es]]].
  destruct (finite_falwa_values _ _ _ Ef) as [rows [EF <-]].
  destruct (C103_filtered_partial K T s _ _ _ _ rows Hg FS EF) as [out [Eo [So P]]]. exists out. split; [exact Eo|]. rewrite (Es eq_refl). do 2 f_equal.
  destruct (falwa_values_shaped _ _ _ _ _ _ _ Hg (proj1 FS) EF) as [SR _].
  apply (nth_ext _ _ 0 0); [rewrite !map_length; now rewrite (proj1 SR), (proj1 So)|]. intros i Hi. rewrite map_length, (proj1 SR) in Hi.
  rewrite !(nth_map_lt _ _ _ []) by (now rewrite ?(proj1 SR), ?(proj1 So)). symmetry. apply (P i Hi).
Qed.
Print Assumptions C103_zonal_mean.

Lemma points_differ h k : (1 <= k)%nat -> (k * (k - 1) <= h)%nat -> (2 * k <= h)%nat -> wave_points (2 * h) (2 * INR k - 2) <> wave_points (2 * h) (2 * INR k).
Proof.
  intros K1 KK K2. assert (N : (0 < 2 * h)%nat) by lia.
  destruct (wave_points_ge (2 * h) (2 * INR k - 2) N) as [_ E1]. destruct (wave_points_ge (2 * h) (2 * INR k) N) as [_ E2]. unfold clip in E1, E2.
  set (x := wave_points _ (2 * INR k - 2)) in *. set (y := wave_points _ (2 * INR k)) in *. intros E. rewrite E in E1. clearbody x y. subst x.
  assert (Pk : 1 <= INR k) by (apply (le_INR 1); exact K1). assert (Ph : 2 * INR k <= INR h) by (replace 2 with (INR 2) by reflexivity; rewrite <- mult_INR; now apply le_INR).
  replace (INR (2 * h)) with (2 * INR h) in * by (rewrite mult_INR; cbn; lra).
  rewrite Rmax_left, Rmin_left in E2 by lra. replace (2 * INR h / (2 * INR k)) with (INR h / INR k) in E2 by (field; lra).
  destruct (base_Int_part (INR h / INR k)) as [A2 B2]. rewrite E2 in A2, B2.
  destruct (Nat.eq_dec k 1) as [->|K3].
  - replace (INR 1) with 1 in * by reflexivity. rewrite Rmax_right, Rmin_left in E1 by lra. destruct (base_Int_part (2 * INR h / 1)) as [A1 B1]. rewrite E1 in A1, B1. lra.
  - assert (P2 : 2 <= INR k) by (apply (le_INR 2); lia). rewrite Rmax_left, Rmin_left in E1 by lra.
    replace (2 * INR h / (2 * INR k - 2)) with (INR h / (INR k - 1)) in E1 by (field; lra). destruct (base_Int_part (INR h / (INR k - 1))) as [A1 B1]. rewrite E1 in A1, B1.
    assert (D : INR h / (INR k - 1) - INR h / INR k = INR h / (INR k * (INR k - 1))) by (field; lra).
    assert (Q : INR k * (INR k - 1) <= INR h) by (replace (INR k * (INR k - 1)) with (INR (k * (k - 1))) by (rewrite mult_INR, minus_INR by lia; reflexivity); now apply le_INR).
    assert (P : 0 < INR k * (INR k - 1)) by (apply Rmult_lt_0_compat; lra).
    assert (1 <= INR h / (INR k * (INR k - 1))) by (apply (Rmult_le_reg_r (INR k * (INR k - 1))); [exact P|]; unfold Rdiv; rewrite Rmult_assoc, Rinv_l by lra; lra). lra.
Qed.
(** Wind with wavenumber k at all latitudes: the window belongs to the
    wavenumber 2 (k - 1), not 2 k *)
Theorem C103_window_refuted : forall K (T : sphfam) (s : state K) res rs om nt rows h k (a b : nat -> R), mk_grid res rs om nt = Ok (s_grid s) -> fields_shaped T s ->
  falwa (s_grid s) (s_pv T s) LNone "sptrapz" = Ok (values rows) -> g_nlon (s_grid s) = (2 * h)%nat ->
  (1 <= k <= 20)%nat -> (2 * k <= h)%nat -> (k * (k - 1) <= h)%nat ->
  s_v T s = mat_of (g_nlat (s_grid s)) (2 * h) (fun i => zonal_wave (2 * h) k (a i) (b i)) -> (forall i, (i < g_nlat (s_grid s))%nat -> amplitude (a i) (b i) <> 0) ->
  falwa_filtered T s = Ok (mat_of (g_nlat (s_grid s)) (2 * h) (fun i j => hann_mean (wave_points (2 * h) (2 * INR k - 2)) (nth i rows []) j))
  /\ wave_points (2 * h) (2 * INR k - 2) <> wave_points (2 * h) (2 * INR k).
Proof.
  intros K T s res rs om nt rows h k a b Hg [S1 [S2 [S3 S4]]] EF Hh K1 K2 K3 Ev Am. split; [|apply points_differ; lia]. set (g := s_grid s) in *.
  pose proof (nlat_gt1' _ _ _ _ _ Hg) as N1. destruct (falwa_values_shaped _ _ _ _ _ _ _ Hg S1 EF) as [SR _]. rewrite Hh in SR.
  assert (Dl : 0 < g_dlon g) by (pose proof (mk_grid_facts _ _ _ _ _ Hg) as G; unfold g_dlon; rewrite (gf_res _ _ _ _ G); apply G).
  assert (A1e : INR 1 = 1) by reflexivity. pose proof (C68_wave_refuted h (g_nlat g) a b k g 1 20 ltac:(lia) ltac:(unfold in_range; lia) Am) as Ek. rewrite <- Ev, A1e in Ek.
  unfold falwa_filtered. fold g. unfold dominant_wavenumber_fourier in Ek |- *. destruct (res_map _ (s_v T s)) as [kd|]; [|discriminate Ek]. cbn [bind] in Ek |- *. apply Ok_inj in Ek. injection Ek as ->.
  assert (Rp : tab (g_nlat g) (fun _ => INR k - 1) = repeat (INR k - 1) (g_nlat g)).
  { apply (nth_ext _ _ 0 0); [now rewrite tab_length, repeat_length|]. intros i Hi. rewrite tab_length in Hi. rewrite tab_nth by exact Hi. symmetry. apply (repeat_spec (g_nlat g)). apply nth_In. now rewrite repeat_length. }
  destruct (smooth_profile g (tab (g_nlat g) (fun _ => INR k - 1))) as [sm [Es [_ Ec]]]; [apply tab_length|exact Dl|]. rewrite Es, (Ec _ Rp). cbn [bind]. rewrite EF. cbn [bind]. rewrite values_finite. cbn [bind].
  rewrite (C65_profile (g_nlat g) (2 * h) rows) by (auto; try lia; unfold vscale; now rewrite map_length, tab_length).
  rewrite (by_wavenumber_value (g_nlat g) (2 * h)) by (auto; try lia; apply shaped_mat_of). f_equal. apply mat_of_ext. intros i j Hi Hj. rewrite mget_mat_of by assumption. do 2 f_equal.
  unfold vscale. rewrite tab_map, tab_nth by exact Hi. lra.
Qed.
Print Assumptions C103_window_refuted.
Example C103_nonvacuous : mk_grid 90 1 1 (Some 1%Z) = Ok (s_grid example_state) /\ fields_shaped d1_family example_state /\ is_integer (360 / 90)
  /\ extremes (g_nlat (s_grid example_state)) (g_nlon (s_grid example_state)) (s_pv d1_family example_state) (-5) 5
  /\ (exists rows, falwa (s_grid example_state) (s_pv d1_family example_state) LNone "sptrapz" = Ok (values rows)) /\ g_nlon (s_grid example_state) = (2 * 2)%nat
  /\ s_v d1_family example_state = mat_of 3 (2 * 2) (fun i => zonal_wave (2 * 2) 1 (/ 2) 0) /\ amplitude (/ 2) 0 <> 0.
Proof.
  assert (HE : exact_on d1_family (d1_grid 1 1)) by (apply d1_exact; lra).
  assert (FS : fields_shaped d1_family example_state) by (apply (fields_shaped_exact _ _ _ HE example_on_grid)).
  assert (Gr : mk_grid 90 1 1 (Some 1%Z) = Ok (s_grid example_state)) by (apply d1_grid_ok; lra).
  assert (I4 : is_integer (360 / 90)) by (exists 4%Z; lra).
  assert (X : extremes (g_nlat (s_grid example_state)) (g_nlon (s_grid example_state)) (s_pv d1_family example_state) (-5) 5).
  { change (extremes 3 4 (s_pv d1_family example_state) (-5) 5). split; [|split].
    - intros i j Hi Hj. rewrite example_pv by assumption. destruct i as [|[|[|i]]]; [| | |lia]; destruct j as [|[|[|[|j]]]]; try lia; cbn; lra.
    - exists 2%nat, 0%nat. rewrite example_pv by lia. cbn. split; [lia|]. split; [lia|]. lra.
    - exists 0%nat, 0%nat. rewrite example_pv by lia. cbn. split; [lia|]. split; [lia|]. lra. }
  split; [exact Gr|]. split; [exact FS|]. split; [exact I4|]. split; [exact X|]. split.
  { destruct (C71_sptrapz_partial _ _ _ _ _ _ (-5) 5 LNone Gr I4 (proj1 FS) X ltac:(lra) (or_introl eq_refl)) as [f [_ [Ef _]]]. destruct (finite_falwa_values _ _ _ Ef) as [rows [EF _]]. eauto. }
  split; [reflexivity|]. split.
  - destruct FS as [_ [_ [S3 _]]]. rewrite (mat_of_mget _ _ _ S3). change (g_nlat (s_grid example_state)) with 3%nat. change (g_nlon (s_grid example_state)) with (2 * 2)%nat. apply mat_of_ext. intros i j Hi Hj.
    rewrite example_v by assumption. unfold zonal_wave. destruct quarter_turns as [[c0 s0] [[c1 s1] [[c2 s2] [c3 s3]]]].
    unfold angle in *. change (2 * 2)%nat with 4%nat in *. destruct j as [|[|[|[|j]]]]; [| | | |lia]; rewrite ?c0, ?c1, ?c2, ?c3, ?s0, ?s1, ?s2, ?s3; cbn; lra.
  - unfold amplitude. replace ((/ 2) ^ 2 + 0 ^ 2) with (/ 2 * / 2) by (cbn; lra). rewrite sqrt_square by lra. lra.
Qed.

(** C104: the envelope of the meridional wind, wavenumbers 2 to 10 *)
Theorem C104_waves : forall K (T : sphfam) (s : state K) h nr (a b : nat -> R) (k : nat -> nat), (1 <= h)%nat ->
  s_v T s = mat_of nr (2 * h) (fun i => zonal_wave (2 * h) (k i) (a i) (b i)) -> (forall i, (i < nr)%nat -> (0 < k i < h)%nat) ->
  ((forall i, (i < nr)%nat -> (2 <= k i <= 10)%nat) -> v_envelope_hilbert T s = Ok (mat_of nr (2 * h) (fun i _ => amplitude (a i) (b i))))
  /\ ((forall i, (i < nr)%nat -> ~ (2 <= k i <= 10)%nat) -> v_envelope_hilbert T s = Ok (mat_of nr (2 * h) (fun _ _ => 0))).
Proof.
  intros K T s h nr a b k H1 Ev Hk. unfold v_envelope_hilbert. rewrite Ev. split; intros Q.
  - apply C67_inside_partial; [exact H1|]. intros i Hi. split; [exact (Q i Hi)|]. left. auto.
  - apply C67_outside_partial; [exact H1|]. intros i Hi. split; [specialize (Hk i Hi); lia|exact (Q i Hi)].
Qed.
Print Assumptions C104_waves.
Theorem C104_bound : forall K (T : sphfam) (s : state K) h, (1 <= h)%nat -> g_nlon (s_grid s) = (2 * h)%nat -> fields_shaped T s ->
  exists w e, restrict_fourier_zonal (s_v T s) 2 10 = Ok w /\ v_envelope_hilbert T s = Ok e
  /\ shaped (g_nlat (s_grid s)) (g_nlon (s_grid s)) e
  /\ forall i j, (i < g_nlat (s_grid s))%nat -> (j < g_nlon (s_grid s))%nat -> Rabs (mget w i j) <= mget e i j.
Proof.
  intros K T s h H1 Hh [_ [_ [S3 _]]]. rewrite Hh in *. destruct (C66_spectrum_partial h _ _ 2 10 H1 S3) as [w [Ew _]].
  pose proof (envelope_field h (g_nlat (s_grid s)) (s_v T s) 2 10 H1 S3) as Ee. unfold v_envelope_hilbert. rewrite Ee.
  exists w. eexists. split; [exact Ew|]. split; [reflexivity|]. split; [apply shaped_mat_of|]. intros i j Hi Hj. exact (C67_bound_partial h _ _ 2 10 _ _ H1 S3 Ew Ee i j Hi Hj).
Qed.
Print Assumptions C104_bound.
(** Odd number of longitudes: the envelope has one longitude less than the grid *)
Theorem C104_odd_refuted : forall K (T : sphfam) (s : state K) h, (1 <= h)%nat -> g_nlon (s_grid s) = (2 * h + 1)%nat -> (0 < g_nlat (s_grid s))%nat -> fields_shaped T s ->
  exists e, v_envelope_hilbert T s = Ok e /\ shaped (g_nlat (s_grid s)) (2 * h) e /\ ~ shaped (g_nlat (s_grid s)) (g_nlon (s_grid s)) e.
Proof. intros K T s h H1 Hh N [_ [_ [S3 _]]]. rewrite Hh in *. exact (C67_odd_refuted h _ _ 2 10 H1 N S3). Qed.
Print Assumptions C104_odd_refuted.
Example C104_nonvacuous : (1 <= 2)%nat /\ g_nlon (s_grid example_state) = (2 * 2)%nat /\ fields_shaped d1_family example_state
  /\ s_v d1_family example_state = mat_of 3 (2 * 2) (fun i => zonal_wave (2 * 2) 1 (/ 2) 0) /\ v_envelope_hilbert d1_family example_state = Ok (mat_of 3 (2 * 2) (fun _ _ => 0)).
Proof.
  destruct C103_nonvacuous as [_ [FS [_ [_ [_ [Hn [Ev _]]]]]]]. split; [lia|]. split; [exact Hn|]. split; [exact FS|]. split; [exact Ev|].
  apply (C104_waves _ d1_family example_state 2 3 (fun _ => / 2) (fun _ => 0) (fun _ => 1%nat)); [lia|exact Ev|intros; lia|intros; lia].
Qed.

(** C105: from_hn2016 without a grid *)
Lemma ylat_step g lon pv : (3 <= g_nlat g)%nat -> exists t, bf_dphi (mkBarofield lon (rev (g_lat g)) pv) = deg2rad (180 / INR (g_nlat g - 1)) :: t.
Proof.
  intros N. set (n := g_nlat g) in *. assert (L : length (rev (g_lat g)) = n) by (rewrite rev_length; apply tab_length).
  assert (E : forall i, (i < n)%nat -> nth i (rev (g_lat g)) 0 = -90 + INR i * (180 / INR (n - 1))).
  { intros i Hi. rewrite rev_nth by (rewrite <- rev_length, L; exact Hi). rewrite <- (rev_length (g_lat g)), L. unfold g_lat, linspace_end. fold n. rewrite tab_nth by lia.
    assert (P : 0 < INR (n - 1)) by (apply lt_0_INR; lia). replace (INR (n - S i)) with (INR (n - 1) - INR i) by (rewrite <- minus_INR by lia; f_equal; lia). field. lra. }
  destruct (rev (g_lat g)) as [|x [|y t]] eqn:R; cbn in L; try lia.
  pose proof (E 0%nat ltac:(lia)) as E0. pose proof (E 1%nat ltac:(lia)) as E1. cbn [nth] in E0, E1. cbn [INR] in E0, E1.
  unfold bf_dphi. cbn [bf_ylat]. unfold vdiff, pairs. cbn [tl combine map fst snd]. eexists. f_equal. f_equal. rewrite E0, E1. ring.
Qed.
Lemma double_floor res n m : (0 < m)%nat -> 0 < res -> INR n <= 360 / res < INR n + 1 -> INR m <= 180 / res < INR m + 1 -> n = (2 * m)%nat \/ n = (2 * m + 1)%nat.
Proof.
  intros M R [A1 A2] [B1 B2]. replace (360 / res) with (2 * (180 / res)) in * by (field; lra).
  assert (INR n < INR (2 * m + 2)) as X1 by (rewrite plus_INR, mult_INR; cbn [INR]; lra). assert (INR (2 * m) < INR (n + 1)) as X2 by (rewrite plus_INR, mult_INR; cbn [INR]; lra).
  apply INR_lt in X1, X2. lia.
Qed.
Lemma new_grid res rs om nt g earth : mk_grid res rs om nt = Ok g -> 0 < fst earth ->
  mk_grid (rad2deg (deg2rad (180 / INR (g_nlat g - 1)))) (fst earth) (snd earth) None
  = Ok {| g_res := 180 / INR (g_nlat g - 1); g_rsphere := fst earth; g_omega := snd earth; g_nlon := 2 * (g_nlat g - 1); g_nlat := g_nlat g; g_ntrunc := g_nlat g - 1 |}.
Proof.
  intros Hg E. rewrite rad2deg_deg2rad. pose proof (gf_nlat3 _ _ _ _ (mk_grid_facts _ _ _ _ _ Hg)) as N3. set (m := (g_nlat g - 1)%nat).
  assert (P : 0 < INR m) by (apply lt_0_INR; lia).
  rewrite (mk_grid_Ok (180 / INR m) (fst earth) (snd earth) (Z.of_nat (2 * m)) (Z.of_nat m)).
  - f_equal. rewrite !Nat2Z.id. f_equal. lia.
  - apply Rdiv_lt_0_compat; lra.
  - exact E.
  - rewrite <- INR_IZR_INZ, mult_INR. cbn [INR]. replace (360 / (180 / INR m)) with (2 * INR m) by (field; lra). lra.
  - rewrite <- INR_IZR_INZ. replace (180 / (180 / INR m)) with (INR m) by (field; lra). lra.
  - lia.
  - lia.
Qed.
(** Even number of longitudes: the new state has the coordinates and the PV of
    the old one on the default planet with the default truncation.  Full claim:
    the state is recovered. *)
Theorem C105_new_grid_partial : forall K (T : sphfam) earth (s : state K) (time : pyval K) res rs om nt, mk_grid res rs om nt = Ok (s_grid s) -> 0 < fst earth ->
  Nat.Even (g_nlon (s_grid s)) ->
  exists g, from_hn2016 T earth None time (as_hn2016 T s) = state_init T g time (Some (s_pv T s)) None
  /\ g_lat g = g_lat (s_grid s) /\ g_lon g = g_lon (s_grid s) /\ g_rsphere g = fst earth /\ g_omega g = snd earth /\ g_ntrunc g = (g_nlat g - 1)%nat
  /\ (rs = fst earth -> om = snd earth -> nt = None -> is_integer (180 / res) -> g = s_grid s).
Proof.
  intros K T earth s time res rs om nt Hg E Ev. pose proof (mk_grid_facts _ _ _ _ _ Hg) as G. pose proof (gf_nlat3 _ _ _ _ G) as N3.
  assert (D : g_nlon (s_grid s) = (2 * (g_nlat (s_grid s) - 1))%nat).
  { destruct (double_floor res (g_nlon (s_grid s)) (g_nlat (s_grid s) - 1)) as [Q|Q]; [lia|apply G|split; apply G|split; apply G|exact Q|]. destruct Ev as [x Hx]. lia. }
  eexists. split.
  - unfold from_hn2016, as_hn2016. destruct (ylat_step (s_grid s) (g_lon (s_grid s)) (rev (s_pv T s)) N3) as [t ->]. rewrite (new_grid _ _ _ _ _ _ Hg E). cbn [bind bf_xlon bf_ylat bf_pv g_nlon g_nlat].
    rewrite rev_length. replace (length (g_lon (s_grid s))) with (g_nlon (s_grid s)) by (symmetry; apply tab_length). replace (length (g_lat (s_grid s))) with (g_nlat (s_grid s)) by (symmetry; apply tab_length).
    rewrite D, !Nat.eqb_refl. cbn [passert]. rewrite rev_involutive. reflexivity.
  - unfold g_lat, g_lon. cbn [g_nlat g_nlon g_rsphere g_omega g_ntrunc]. rewrite D. do 5 (split; [reflexivity|]). intros -> -> -> [k Hk].
    assert (Er : res = 180 / INR (g_nlat (s_grid s) - 1)).
    { pose proof (gf_nlat_lo _ _ _ _ G) as B1. pose proof (gf_nlat_hi _ _ _ _ G) as B2. rewrite Hk in B1, B2. rewrite INR_IZR_INZ in *. rewrite <- plus_IZR in B2. apply le_IZR in B1. apply lt_IZR in B2.
      assert (K0 : k = Z.of_nat (g_nlat (s_grid s) - 1)) by lia. rewrite <- K0, <- Hk. pose proof (gf_res_pos _ _ _ _ G). field. lra. }
    pose proof (new_grid _ _ _ _ _ earth Hg E) as Q. rewrite rad2deg_deg2rad, <- Er, Hg in Q. rewrite <- Er. apply Ok_inj in Q. symmetry. exact Q.
Qed.
Print Assumptions C105_new_grid_partial.
Theorem C105_odd_refuted : forall K (T : sphfam) earth (s : state K) (time : pyval K) res rs om nt, mk_grid res rs om nt = Ok (s_grid s) -> 0 < fst earth ->
  Nat.Odd (g_nlon (s_grid s)) -> from_hn2016 T earth None time (as_hn2016 T s) = Err AssertionError.
Proof.
  intros K T earth s time res rs om nt Hg E Od. pose proof (mk_grid_facts _ _ _ _ _ Hg) as G. pose proof (gf_nlat3 _ _ _ _ G) as N3.
  unfold from_hn2016, as_hn2016. destruct (ylat_step (s_grid s) (g_lon (s_grid s)) (rev (s_pv T s)) N3) as [t ->]. rewrite (new_grid _ _ _ _ _ _ Hg E). cbn [bind bf_xlon bf_ylat bf_pv g_nlon g_nlat].
  replace (length (g_lon (s_grid s))) with (g_nlon (s_grid s)) by (symmetry; apply tab_length). destruct (Nat.eqb_spec (g_nlon (s_grid s)) (2 * (g_nlat (s_grid s) - 1))) as [Q|_]; [|reflexivity].
  destruct Od as [x Hx]. lia.
Qed.
Print Assumptions C105_odd_refuted.
(** Radius and rotation rate are lost *)
Theorem C105_planet_refuted : forall K (T : sphfam) earth (s s' : state K) (time : pyval K) res rs om nt, mk_grid res rs om nt = Ok (s_grid s) -> 0 < fst earth ->
  from_hn2016 T earth None time (as_hn2016 T s) = Ok s' -> (rs <> fst earth \/ om <> snd earth) -> s_grid s' <> s_grid s.
Proof.
  intros K T earth s s' time res rs om nt Hg E Es P. pose proof (mk_grid_facts _ _ _ _ _ Hg) as G.
  destruct (Nat.Even_or_Odd (g_nlon (s_grid s))) as [Ev|Od]; [|rewrite (C105_odd_refuted K T earth s time _ _ _ _ Hg E Od) in Es; discriminate].
  destruct (C105_new_grid_partial K T earth s time _ _ _ _ Hg E Ev) as [g [Eg [_ [_ [Er [Eo _]]]]]]. rewrite Eg in Es. cbn in Es. apply Ok_inj in Es. subst s'. cbn [s_grid].
  intros Q. rewrite Q in Er, Eo. rewrite (gf_rs _ _ _ _ G) in Er. rewrite (gf_om _ _ _ _ G) in Eo. destruct P; congruence.
Qed.
Print Assumptions C105_planet_refuted.
Example C105_nonvacuous : mk_grid 90 1 1 (Some 1%Z) = Ok (s_grid example_state) /\ 0 < fst (6371200, 7.292 / 100000) /\ Nat.Even (g_nlon (s_grid example_state)) /\ 1 <> fst (6371200, 7.292 / 100000)
  /\ exists g, mk_grid 72 1 0 None = Ok g /\ Nat.Odd (g_nlon g).
Proof.
  split; [apply d1_grid_ok; lra|]. cbn [fst]. split; [lra|]. split; [exists 2%nat; reflexivity|]. split; [lra|].
  eexists. split; [apply (mk_grid_Ok 72 1 0 5 2); lra || lia|exists 2%nat; reflexivity].
Qed.
