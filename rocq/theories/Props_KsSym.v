(** The stationary wavenumber and waveguides on the rotated and on the reflected sphere: C118. *)
From Coq Require Export String.
From Verif Require Import Base Model_Grid Model_Time Model_Spectral Model_State Spec_Grid Spec_Spectral Spec_State Spec_Instance Spec_Sym Spec_Symmetry.
From Verif Require Import Proofs_Base Proofs_Grid Proofs_Region Proofs_Spectral Proofs_Instance Proofs_Sym Proofs_Symmetry Proofs_SymInst Props_Symmetry Proofs_State.
From Verif Require Import Proofs_Quad Proofs_Falwa Spec_Deriv Model_Ks Spec_Ks Proofs_Ks Props_Ks Spec_KsSym Proofs_KsSym Model_Region.
From Coq Require Import List Lia Lra.
Import ListNotations.
Open Scope R_scope.

(** ** C118 *)
(** Renumbering the longitudes of wind and PV changes neither the stationary
    wavenumber nor the errors, whatever the grid. *)
Theorem C118_rotation : forall g p nr nc u pv order min_u kind, permutes nc p -> shaped nr nc u ->
  (forall f, pv = Some f -> exists nr' q, f = A2 q /\ shaped nr' nc q) ->
  stationary_wavenumber g (relabel_array p (A2 u)) (option_map (relabel_array p) pv) order min_u kind
  = stationary_wavenumber g (A2 u) pv order min_u kind.
Proof.
  intros g p nr nc u pv order min_u kind P S Q. unfold stationary_wavenumber, ks_squared. rewrite (profile_relabel p nr nc) by assumption.
  destruct pv as [f|]; [|reflexivity]. destruct (Q f eq_refl) as [nr' [q [-> Sq]]]. cbn [option_map]. unfold ks_pv. now rewrite (profile_relabel p nr' nc) by assumption.
Qed.
Print Assumptions C118_rotation.

(** Reflecting the wind, and the PV with the opposite sign, reflects the
    stationary wavenumber; errors are the same.  Profiles and fields of any size,
    given or missing PV, and all three variants. *)
Theorem C118_reflection : forall res rs om nt g, mk_grid res rs om nt = Ok g ->
  forall u pv order min_u kind,
  stationary_wavenumber g (mirror_array 1 u) (option_map (mirror_array (-1)) pv) order min_u kind
  = on_ok rev_result (stationary_wavenumber g u pv order min_u kind).
Proof. intros res rs om nt g Hg u pv order min_u kind. exact (ks_mirror _ _ _ _ _ Hg u pv order min_u kind). Qed.
Print Assumptions C118_reflection.

(** State.stationary_wavenumber of the rotated and of the reflected atmosphere. *)
Theorem C118_state : forall K T g res rs om nt, mk_grid res rs om nt = Ok g -> exact_on T g ->
  forall s : state K, s_grid s = g -> length (s_pvs s) = nspec (g_ntrunc g) ->
  (rotates T g -> state_stationary_wavenumber T (rotated s) = state_stationary_wavenumber T s)
  /\ (reflects T g -> state_stationary_wavenumber T (reflected s) = on_ok rev_result (state_stationary_wavenumber T s)).
Proof.
  intros K T g res rs om nt Hg H s G L. destruct (C111_fields K T g res rs om nt Hg H s G L) as [X Y]. unfold state_stationary_wavenumber. split; intros HR.
  - destruct (X HR) as [-> [-> _]]. change (s_grid (rotated s)) with (s_grid s). rewrite G. destruct (mk_grid_counts _ _ _ _ _ Hg) as [_ [P _]].
    apply (C118_rotation g (fun j => ((j + 1) mod g_nlon g)%nat) (g_nlat g) (g_nlon g) (s_u T s) (Some (A2 (s_pv T s)))); [now apply rotate_permutes| |].
    + unfold s_u, s_invert_pv, wind. rewrite G. apply (et_wind_shape _ _ _ _ H).
    + intros f E. injection E as <-. exists (g_nlat g), (s_pv T s). split; [reflexivity|]. unfold s_pv. rewrite G. apply (B_shape T g H).
  - destruct (Y HR) as [-> [-> _]]. change (s_grid (reflected s)) with (s_grid s). rewrite G.
    exact (C118_reflection _ _ _ _ _ Hg (A2 (s_u T s)) (Some (A2 (s_pv T s))) (ONum 4) (/ 1000) "complex").
Qed.
Print Assumptions C118_state.

(** Waveguides of the reflected profile are the reflected waveguides if the
    latitudes are [res] apart, k is not a value of the profile and the profile
    does not jump from minus infinity to a finite value above k in either
    direction.  Missing: the other cases, in which it is false. *)
Theorem C118_waveguides_partial : forall res rs om nt g, mk_grid res rs om nt = Ok g -> is_integer (180 / res) ->
  forall k ks z kc, length ks = g_nlat g -> not_nan ks -> never_equal k ks -> ~ jumps k ks -> ~ jumps k (rev ks) ->
  Forall2 stands_for z ks -> stands_for kc (Fin k) ->
  extract_ks_waveguides g (rev z) kc = on_ok mirror_waveguides (extract_ks_waveguides g z kc).
Proof. intros res rs om nt g Hg HI k ks z kc. now apply (waveguides_mirror res rs om nt). Qed.
Print Assumptions C118_waveguides_partial.

(** State.extract_ks_waveguides of the rotated and of the reflected atmosphere. *)
Theorem C118_state_waveguides_partial : forall K T g res rs om nt, mk_grid res rs om nt = Ok g -> exact_on T g ->
  forall s : state K, s_grid s = g -> length (s_pvs s) = nspec (g_ntrunc g) ->
  (rotates T g -> forall kc, state_extract_ks_waveguides T (rotated s) kc = state_extract_ks_waveguides T s kc)
  /\ (reflects T g -> is_integer (180 / res) -> forall k ks z kc, state_stationary_wavenumber T s = Ok (KsComplex z) ->
      length ks = g_nlat g -> not_nan ks -> never_equal k ks -> ~ jumps k ks -> ~ jumps k (rev ks) ->
      Forall2 stands_for z ks -> stands_for kc (Fin k) ->
      state_extract_ks_waveguides T (reflected s) kc = on_ok mirror_waveguides (state_extract_ks_waveguides T s kc)).
Proof.
  intros K T g res rs om nt Hg H s G L. destruct (C118_state K T g res rs om nt Hg H s G L) as [X Y]. unfold state_extract_ks_waveguides. split.
  - intros HR kc. now rewrite (X HR).
  - intros HR HI k ks z kc E L1 N1 N2 J1 J2 F Hk. rewrite (Y HR), E. cbn [on_ok bind rev_result]. change (s_grid (reflected s)) with (s_grid s). rewrite G.
    now apply (C118_waveguides_partial res rs om nt g Hg HI k ks).
Qed.
Print Assumptions C118_state_waveguides_partial.

(** A wind profile whose waveguides are not those of its reflection: Ks of the
    reflected wind is the reflected Ks, yet a waveguide that starts at NaN has no
    counterpart, southern boundaries being finite. *)
Theorem C118_waveguides_refuted : exists g u z W W', mk_grid 45 1 0 None = Ok g /\ is_integer (180 / 45)
  /\ stationary_wavenumber g (A1 u) None (ONum 2) (/ 1000) "complex" = Ok (KsComplex z)
  /\ stationary_wavenumber g (A1 (rev u)) None (ONum 2) (/ 1000) "complex" = Ok (KsComplex (rev z))
  /\ extract_ks_waveguides g z (Fin (/ 2), Fin 0) = Ok W /\ extract_ks_waveguides g (rev z) (Fin (/ 2), Fin 0) = Ok W'
  /\ W' <> mirror_waveguides W.
Proof.
  destruct u45_ks as [x [Hx [a E]]].
  assert (Hu : profile_of grid45 (A1 u45) u45) by (split; [reflexivity|left; reflexivity]).
  destruct (C74_same_variants _ _ _ _ _ O2 (ONum 2) (A1 u45) u45 None (/ 1000) (/ 2) grid45_ok eq_refl ltac:(cbn; lia) ltac:(lra) Hu ltac:(discriminate))
    as [z [re [W0 [E1 [E2 [Lr [Nr [F1 _]]]]]]]].
  assert (HK : stands_for (Fin (/ 2), Fin 0) (Fin (/ 2))) by (apply sf_real; discriminate).
  destruct (C75_finite_iff_partial _ _ _ _ _ re (/ 2) z _ grid45_ok Lr Nr F1 HK) as [W [E3 [_ [_ J]]]].
  assert (F2 : Forall2 stands_for (rev z) (rev re)). { clear - F1. induction F1; [constructor|]. cbn. apply Forall2_app; auto. }
  destruct (C75_finite_iff_partial _ _ _ _ _ (rev re) (/ 2) (rev z) _ grid45_ok ltac:(now rewrite rev_length) ltac:(now apply Forall_rev) F2 HK) as [W' [E4 [Fe _]]].
  exists grid45, u45, z, W, W'. split; [apply grid45_ok|]. split; [exists 4%Z; lra|]. split; [exact E1|]. split; [|split; [exact E3|split; [exact E4|]]].
  - pose proof (C118_reflection _ _ _ _ _ grid45_ok (A1 u45) None (ONum 2) (/ 1000) "complex") as R. rewrite E1 in R. cbn [mirror_array option_map on_ok rev_result] in R. now rewrite map_id_1 in R.
  - intros ->. assert (re = [Fin 0; NInf; Fin x; a; Fin 0]) by congruence. subst re.
    destruct J as [e He]. { exists 1%nat, x. cbn. repeat split; auto; lia. }
    destruct (Fe (eopp e) NaN) as [y [A _]]; [|discriminate].
    unfold mirror_waveguides. apply -> in_rev. apply in_map_iff. exists (NaN, e). auto.
Qed.
Print Assumptions C118_waveguides_refuted.

Lemma gridA_lat : g_lat (gridA 1) = [90; 0; -90].
Proof.
  unfold g_lat, linspace_end, tab. cbn [g_nlat gridA Nat.sub seq map INR].
  repeat (apply (f_equal2 (@cons R)); [lra|]). reflexivity.
Qed.
(** Ks equal to k at a pole: a waveguide of width zero at the north pole, none at
    the south pole. *)
Theorem C118_ties_refuted : mk_grid 90 1 0 None = Ok (gridA 1) /\ is_integer (180 / 90)
  /\ extract_ks_waveguides (gridA 1) (map (fun x => (Fin x, Fin 0)) [1; 0; 0]) (Fin 1, Fin 0) = Ok [(Fin 90, Fin 90)]
  /\ extract_ks_waveguides (gridA 1) (map (fun x => (Fin x, Fin 0)) (rev [1; 0; 0])) (Fin 1, Fin 0) = Ok [].
Proof.
  split; [apply gridA_ok; lra|]. split; [exists 2%Z; lra|].
  assert (EL := gridA_lat).
  assert (L : forall x y, x < y -> Rltb x y = true) by (intros; now apply Rltb_true). assert (NL : forall x y, y <= x -> Rltb x y = false) by (intros; now apply Rltb_false).
  split; unfold extract_ks_waveguides; rewrite EL; cbn [rev app map removelast tl hd zip3 last]; unfold real_minus_imag, esub; cbn [fst snd eopp eadd wg_loop eleb].
  - rewrite (proj2 (Rleb_true (1 + - 0) (1 + - 0))) by lra. cbn [andb negb eltb]. rewrite (L (0 + - 0) (1 + - 0)), (NL (1 + - 0) (0 + - 0)) by lra. cbn [andb negb].
    unfold wg_end, wg_cross, esub. cbn [is_inf eopp eadd emul ediv]. rewrite (proj2 (Reqb_false _ _)) by lra. cbn [eopp eadd]. do 4 f_equal. unfold g_dlat. cbn [gridA g_res]. field.
  - rewrite (proj2 (Rleb_false (1 + - 0) (0 + - 0))) by lra. cbn [andb negb eltb]. rewrite (NL (1 + - 0) (0 + - 0)), (NL (1 + - 0) (1 + - 0)) by lra. reflexivity.
Qed.
Print Assumptions C118_ties_refuted.

(** A jet in the northern hemisphere with one waveguide between 67.5N and 22.5N;
    the State of C112 with symmetric transforms. *)
Example C118_nonvacuous :
  (let z := map (fun x => (Fin x, Fin 0)) [0; 2; 0; 0; 0] in let ks := map Fin [0; 2; 0; 0; 0] in
   mk_grid 45 1 0 None = Ok grid45 /\ is_integer (180 / 45) /\ length ks = g_nlat grid45 /\ not_nan ks /\ never_equal 1 ks /\ ~ jumps 1 ks /\ ~ jumps 1 (rev ks)
   /\ Forall2 stands_for z ks /\ stands_for (Fin 1, Fin 0) (Fin 1)
   /\ extract_ks_waveguides grid45 z (Fin 1, Fin 0) = Ok [(Fin (135 / 2), Fin (45 / 2))]
   /\ extract_ks_waveguides grid45 (rev z) (Fin 1, Fin 0) = Ok [(Fin (- (45 / 2)), Fin (- (135 / 2)))])
  /\ mk_grid 90 1 1 (Some 1%Z) = Ok (d1_grid 1 1) /\ exact_on d1_family (d1_grid 1 1) /\ rotates d1_family (d1_grid 1 1) /\ reflects d1_family (d1_grid 1 1)
  /\ s_grid zonal_example = d1_grid 1 1 /\ length (s_pvs zonal_example) = nspec (g_ntrunc (d1_grid 1 1)).
Proof.
  split.
  - cbv zeta. assert (HI : is_integer (180 / 45)) by (exists 4%Z; lra).
    assert (NN : not_nan (map Fin [0; 2; 0; 0; 0])) by (apply Forall_forall; intros a Ha; apply in_map_iff in Ha; destruct Ha as [x [<- _]]; discriminate).
    assert (NE : never_equal 1 (map Fin [0; 2; 0; 0; 0])) by (repeat constructor; intros Q; injection Q; lra).
    assert (J : forall l, ~ jumps 1 (map Fin l)).
    { intros l [i [x [Hi [E _]]]]. rewrite map_length in Hi. rewrite (nth_map_lt Fin l i 0) in E by lia. discriminate. }
    assert (J2 : ~ jumps 1 (rev (map Fin [0; 2; 0; 0; 0]))) by (rewrite <- map_rev; apply J).
    assert (F : Forall2 stands_for (map (fun x => (Fin x, Fin 0)) [0; 2; 0; 0; 0]) (map Fin [0; 2; 0; 0; 0])) by (cbn; repeat constructor; discriminate).
    assert (HK : stands_for (Fin 1, Fin 0) (Fin 1)) by (apply sf_real; discriminate).
    assert (E : extract_ks_waveguides grid45 (map (fun x => (Fin x, Fin 0)) [0; 2; 0; 0; 0]) (Fin 1, Fin 0) = Ok [(Fin (135 / 2), Fin (45 / 2))]).
    { assert (L : forall x y, x < y -> Rltb x y = true) by (intros; now apply Rltb_true). assert (NL : forall x y, y <= x -> Rltb x y = false) by (intros; now apply Rltb_false).
      unfold extract_ks_waveguides. rewrite grid45_lat. cbn [map removelast tl hd zip3 last]. unfold real_minus_imag, esub. cbn [fst snd eopp eadd wg_loop eleb].
      rewrite (proj2 (Rleb_false (1 + - 0) (0 + - 0))) by lra. cbn [andb negb eltb]. rewrite (L (1 + - 0) (2 + - 0)), (L (0 + - 0) (1 + - 0)), !(NL (1 + - 0) (0 + - 0)) by lra. cbn [andb negb].
      unfold wg_start, wg_end, wg_cross, esub. cbn [is_inf eopp eadd emul ediv]. rewrite !(proj2 (Reqb_false _ _)) by lra. cbn [eopp eadd]. unfold g_dlat. cbn [grid45 g_res]. do 2 f_equal. f_equal; f_equal; field. }
    repeat (split; [first [assumption|apply grid45_ok|reflexivity|apply J]|]).
    rewrite (C118_waveguides_partial _ _ _ _ _ grid45_ok HI 1 (map Fin [0; 2; 0; 0; 0])) by (first [assumption|reflexivity|apply J]). now rewrite E.
  - split; [apply d1_grid_ok; lra|]. split; [apply d1_exact; lra|]. split; [apply d1_rotates|]. split; [apply d1_reflects|]. split; [reflexivity|].
    unfold zonal_example. cbn [s_pvs s_grid]. apply (A_len _ _ (d1_exact 1 1 ltac:(lra))).
Qed.
