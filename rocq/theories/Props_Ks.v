(** Theorems on the stationary wavenumber and its waveguides: C72-C75. *)
From Coq Require Export String.
From Verif Require Import Base Model_Grid Spec_Grid Spec_Deriv Proofs_Base Proofs_Grid Proofs_Region Proofs_Quad Proofs_Deriv Proofs_Falwa Model_Ks Spec_Ks Proofs_Ks Model_Region.
From Coq Require Import List Lia Lra.
Open Scope R_scope.

(** ** C72 *)
(** Ks squared for given profiles of wind and PV, [dq] being the derivative of
    the PV profile with respect to latitude in radians: r cos^2(phi) dq / u where
    |u| exceeds the threshold, otherwise an infinity with the sign of the
    gradient, or 0 for a zero gradient.  It is 0 at the poles. *)
Theorem C72_squared res rs om nt g o order u u1 pv q dq min_u : mk_grid res rs om nt = Ok g ->
  denotes order o -> (S (ord o) <= g_nlat g)%nat -> 0 <= min_u ->
  profile_of g u u1 -> profile_of g pv q -> derivative_meridional g (A1 q) order = Ok (A1 dq) ->
  exists sq, stationary_wavenumber g u (Some pv) order min_u "squared" = Ok (KsReal sq) /\ length sq = g_nlat g
    /\ nth 0 sq NaN = Fin 0 /\ nth (g_nlat g - 1) sq NaN = Fin 0
    /\ forall i, (i < g_nlat g)%nat ->
      (min_u < Rabs (nth i u1 0) ->
         nth i sq NaN = Fin (rs * (cos (nth i (g_phi g) 0)) ^ 2 * nth i dq 0 / nth i u1 0))
      /\ (Rabs (nth i u1 0) <= min_u ->
            (nth i dq 0 = 0 -> nth i sq NaN = Fin 0) /\ (0 < nth i dq 0 -> nth i sq NaN = PInf)
            /\ (nth i dq 0 < 0 -> nth i sq NaN = NInf)).
Proof.
  intros Hg Hd Hn Hm Hu Hpv Hdq.
  destruct (ks_squared_form _ _ _ _ _ Hg o order u u1 (Some pv) q dq min_u Hd Hn Hm Hu
    (profile_zonal _ _ _ _ _ Hg _ _ Hpv) (proj1 Hpv) Hdq) as [sq [E H]].
  exists sq. split; [|exact H]. unfold stationary_wavenumber. rewrite E. reflexivity.
Qed.
Print Assumptions C72_squared.

(** Without PV the profile is that of the planetary vorticity plus the relative
    vorticity of the zonal wind, which is taken to be 0 at the poles. *)
Theorem C72_wind_only res rs om nt g o order u u1 d : mk_grid res rs om nt = Ok g ->
  denotes order o -> (S (ord o) <= g_nlat g)%nat -> profile_of g u u1 ->
  derivative_meridional g (A1 (map2 Rmult u1 (map np_cosd (g_lat g)))) order = Ok (A1 d) ->
  exists q, (forall min_u kind, stationary_wavenumber g u None order min_u kind
                              = stationary_wavenumber g u (Some (A1 q)) order min_u kind)
    /\ length q = g_nlat g
    /\ nth 0 q 0 = 2 * om /\ nth (g_nlat g - 1) q 0 = - (2 * om)
    /\ forall i, (0 < i < g_nlat g - 1)%nat -> nth i q 0
         = 2 * om * sin (nth i (g_phi g) 0) - nth i d 0 / (rs * cos (nth i (g_phi g) 0)).
Proof.
  intros Hg Hd Hn Hu E.
  destruct (ks_pv_wind _ _ _ _ _ Hg o order u1 d Hd Hn (proj1 Hu) E) as [q [Eq [Lq [Q0 [Q1 Q2]]]]].
  pose proof (gf_om _ _ _ _ (mk_grid_facts _ _ _ _ _ Hg)) as Om.
  exists q. split; [|split; [auto|]].
  - intros min_u kind. unfold stationary_wavenumber, ks_squared. rewrite (profile_zonal _ _ _ _ _ Hg _ _ Hu). cbn [bind].
    rewrite Eq. reflexivity.
  - unfold coriolis in *. rewrite Om in *.
    replace (deg2rad 90) with (PI / 2) in Q0 by (unfold deg2rad; lra).
    replace (deg2rad (-90)) with (- (PI / 2)) in Q1 by (unfold deg2rad; lra).
    rewrite sin_neg in Q1. rewrite sin_PI2 in *. split; [lra|]. split; [lra|].
    intros i Hi. rewrite Q2 by auto. now rewrite phi_nth by lia.
Qed.
Print Assumptions C72_wind_only.

(** The three kinds are variants of the same numbers, for all inputs; other
    kinds raise ValueError. *)
Theorem C72_variants g u pv order min_u sq :
  stationary_wavenumber g u pv order min_u "squared" = Ok (KsReal sq) ->
  exists cx re, stationary_wavenumber g u pv order min_u "complex" = Ok (KsComplex cx)
    /\ stationary_wavenumber g u pv order min_u "real" = Ok (KsReal re)
    /\ length cx = length sq /\ length re = length sq
    /\ (forall i, (i < length sq)%nat -> variants (nth i sq NaN) (nth i cx (NaN, NaN)) (nth i re NaN))
    /\ forall kind, kind <> "squared"%string -> kind <> "complex"%string -> kind <> "real"%string ->
         stationary_wavenumber g u pv order min_u kind = Err ValueError.
Proof.
  intros E. unfold stationary_wavenumber in *. destruct (ks_squared g u pv order min_u) as [s|]; [|discriminate].
  cbn [bind] in *. assert (s = sq) by (cbn in E; congruence). subst s. clear E.
  exists (map csqrt_real sq), (map real_minus_imag (map csqrt_real sq)).
  split; [reflexivity|]. split; [reflexivity|]. split; [apply map_length|]. split; [now rewrite !map_length|]. split.
  - intros i Hi. rewrite map_map. rewrite (nth_map_lt csqrt_real _ _ NaN) by auto.
    rewrite (nth_map_lt (fun x => real_minus_imag (csqrt_real x)) _ _ NaN) by auto. apply csqrt_variants.
  - intros kind K1 K2 K3.
    rewrite (proj2 (String.eqb_neq _ _) K1), (proj2 (String.eqb_neq _ _) K2), (proj2 (String.eqb_neq _ _) K3). reflexivity.
Qed.
Print Assumptions C72_variants.

(** If the computation fails, it fails in the same way for all kinds. *)
Theorem C72_errors g u pv order min_u e kind :
  stationary_wavenumber g u pv order min_u "squared" = Err e ->
  stationary_wavenumber g u pv order min_u kind = Err e.
Proof.
  unfold stationary_wavenumber. destruct (ks_squared g u pv order min_u); [discriminate|]. cbn [bind]. auto.
Qed.
Print Assumptions C72_errors.

(** Never NaN: for every wind (and PV) of the grid's shape, known order and
    non-negative threshold. *)
Theorem C72_not_nan res rs om nt g o order u u1 pv min_u : mk_grid res rs om nt = Ok g ->
  denotes order o -> (S (ord o) <= g_nlat g)%nat -> 0 <= min_u -> profile_of g u u1 ->
  (forall f, pv = Some f -> exists q, profile_of g f q) ->
  exists sq, stationary_wavenumber g u pv order min_u "squared" = Ok (KsReal sq)
    /\ length sq = g_nlat g /\ not_nan sq.
Proof.
  intros Hg Hd Hn Hm Hu Hpv.
  assert (HQ : exists q, ks_pv g u1 pv order = Ok q /\ length q = g_nlat g).
  { destruct pv as [f|].
    - destruct (Hpv f eq_refl) as [q Hq]. exists q. split; [now apply (profile_zonal _ _ _ _ _ Hg)|apply Hq].
    - destruct (derivative_profile_form _ _ _ _ _ Hg o order (map2 Rmult u1 (map np_cosd (g_lat g))) Hd Hn) as [d [_ [E _]]].
      { rewrite map2_len; [apply Hu|]. rewrite map_length, lat_length. apply Hu. }
      destruct (ks_pv_wind _ _ _ _ _ Hg o order u1 d Hd Hn (proj1 Hu) E) as [q [Eq [Lq _]]]. eauto. }
  destruct HQ as [q [Eq Lq]].
  destruct (derivative_profile_form _ _ _ _ _ Hg o order q Hd Hn Lq) as [dq [_ [E _]]].
  destruct (ks_squared_form _ _ _ _ _ Hg o order u u1 pv q dq min_u Hd Hn Hm Hu Eq Lq E) as [sq [Es [Ls [_ [_ H]]]]].
  exists sq. split; [unfold stationary_wavenumber; now rewrite Es|]. split; [auto|].
  apply Forall_forall. intros a Ha. destruct (In_nth _ _ NaN Ha) as [i [Hi <-]]. rewrite Ls in Hi.
  destruct (H i Hi) as [H1 H2]. destruct (Rle_lt_dec (Rabs (nth i u1 0)) min_u) as [L|L].
  - destruct (H2 L) as [A [B C]]. destruct (Rtotal_order (nth i dq 0) 0) as [T|[T|T]].
    + rewrite C by auto. discriminate.
    + rewrite A by auto. discriminate.
    + rewrite B by lra. discriminate.
  - rewrite H1 by auto. discriminate.
Qed.
Print Assumptions C72_not_nan.

(** ** C73 *)
(** Waveguides are ordered from north to south, disjoint and within the domain.
    Missing: profiles which jump from minus infinity to a finite value above k. *)
Theorem C73_ordered_partial res rs om nt g ks k z kc : mk_grid res rs om nt = Ok g ->
  length ks = g_nlat g -> not_nan ks -> Forall2 stands_for z ks -> stands_for kc (Fin k) -> ~ jumps k ks ->
  exists L, extract_ks_waveguides g z kc = Ok (intervals L) /\ north_to_south 90 L.
Proof.
  intros Hg Hl Hn Hz Hk J.
  destruct (extract_ok _ _ _ _ _ Hg ks k Hl Hn z kc Hz Hk J) as [L [E [N _]]]. eauto.
Qed.
Print Assumptions C73_ordered_partial.

(** ** C74 *)
(** Every grid latitude with Ks > k lies in a waveguide; none with Ks < k lies
    inside one, nor on the boundary of one if the profile is finite. *)
Theorem C74_contains_partial res rs om nt g ks k z kc : mk_grid res rs om nt = Ok g ->
  length ks = g_nlat g -> not_nan ks -> Forall2 stands_for z ks -> stands_for kc (Fin k) -> ~ jumps k ks ->
  exists L, extract_ks_waveguides g z kc = Ok (intervals L)
    /\ (forall j, (j < g_nlat g)%nat -> above k (nth j ks NaN) ->
          exists s e, In (s, e) L /\ e <= nth j (g_lat g) 0 <= s)
    /\ (forall j s e, (j < g_nlat g)%nat -> below k (nth j ks NaN) -> In (s, e) L ->
          ~ (e < nth j (g_lat g) 0 < s))
    /\ (all_finite ks -> forall j s e, (j < g_nlat g)%nat -> below k (nth j ks NaN) -> In (s, e) L ->
          ~ (e <= nth j (g_lat g) 0 <= s)).
Proof.
  intros Hg Hl Hn Hz Hk J.
  destruct (extract_ok _ _ _ _ _ Hg ks k Hl Hn z kc Hz Hk J) as [L [E [_ [A [B [C _]]]]]].
  exists L. repeat split; auto.
Qed.
Print Assumptions C74_contains_partial.

Lemma lat_step_eq res rs om nt g i : mk_grid res rs om nt = Ok g -> is_integer (180 / res) -> (S i < g_nlat g)%nat ->
  res = nth i (g_lat g) 0 - nth (S i) (g_lat g) 0.
Proof.
  intros Hg I Hi. pose proof (eta_integer _ _ _ _ _ Hg I) as E. unfold eta in E.
  assert (N : 0 < INR (g_nlat g - 1)) by (apply lt_0_INR; lia).
  rewrite !lat_nth by lia. rewrite S_INR. 
  match goal with |- _ = ?x => replace x with (180 / INR (g_nlat g - 1)) by (field; lra) end.
  apply Rmult_eq_reg_r with (INR (g_nlat g - 1)); [|lra].
  replace (180 / INR (g_nlat g - 1) * INR (g_nlat g - 1)) with 180 by (field; lra). lra.
Qed.

(** Boundaries other than the poles are at the crossings of the linearly
    interpolated profile with k, if the nominal spacing is the actual one;
    waveguides touch a pole only where Ks >= k there. *)
Theorem C74_crossings_partial res rs om nt g ks k z kc : mk_grid res rs om nt = Ok g -> is_integer (180 / res) ->
  length ks = g_nlat g -> not_nan ks -> Forall2 stands_for z ks -> stands_for kc (Fin k) -> ~ jumps k ks ->
  let lat i := nth i (g_lat g) 0 in let kk i := nth i ks NaN in
  exists L, extract_ks_waveguides g z kc = Ok (intervals L)
    /\ forall s e, In (s, e) L ->
      ((s = 90 /\ ~ below k (kk 0%nat))
        \/ exists i, (S i < g_nlat g)%nat /\ ~ above k (kk i) /\ above k (kk (S i))
             /\ crossing k s (lat i) (kk i) (lat (S i)) (kk (S i)))
      /\ ((e = -90 /\ ~ below k (kk (g_nlat g - 1)%nat))
        \/ exists i, (S i < g_nlat g)%nat /\ ~ below k (kk i) /\ below k (kk (S i))
             /\ crossing k e (lat i) (kk i) (lat (S i)) (kk (S i))).
Proof.
  intros Hg I Hl Hn Hz Hk J lat kk.
  destruct (extract_ok _ _ _ _ _ Hg ks k Hl Hn z kc Hz Hk J) as [L [E [_ [_ [_ [_ B]]]]]].
  exists L. split; [auto|]. intros s e Hin. destruct (B s e Hin) as [S1 E1]. clear B.
  pose proof (gf_nlat3 _ _ _ _ (mk_grid_facts _ _ _ _ _ Hg)) as N3. split.
  - destruct S1 as [[S1 S2]|[i [Hi [A1 [A2 [A3 A4]]]]]].
    + left. split; [|auto]. rewrite S1, lat_nth by lia. cbn [INR]. lra.
    + right. exists i. repeat split; auto.
      pose proof (lat_step _ _ _ _ _ Hg i Hi) as D. pose proof (kk_nan g ks Hl Hn i ltac:(lia)) as Nn.
      destruct (seg_start _ _ _ _ _ Hg k _ _ _ _ D Nn A1 A2) as [T _].
      destruct T as [s' [T1 [_ [_ T2]]]].
      { intros [Q1 [x Q2]]. apply J. exists i, x. rewrite Hl. unfold kk in *. rewrite Q2 in A2. auto. }
      assert (s' = s) by congruence. subst s'. apply T2. now apply (lat_step_eq res rs om nt).
  - clear S1. destruct E1 as [[S1 S2]|[i [Hi [A1 [A2 [A3 A4]]]]]].
    + left. split; [|auto]. rewrite S1, lat_nth by lia. field. apply not_0_INR. lia.
    + right. exists i. repeat split; auto.
      pose proof (lat_step _ _ _ _ _ Hg i Hi) as D. pose proof (kk_nan g ks Hl Hn i ltac:(lia)) as Nn.
      destruct (seg_end _ _ _ _ _ Hg k _ _ _ _ D Nn A1 A2) as [e' [T1 [_ [_ T2]]]].
      assert (e' = e) by congruence. subst e'. apply T2. now apply (lat_step_eq res rs om nt).
Qed.
Print Assumptions C74_crossings_partial.

(** ** C75 *)
(** For NaN-free profiles the southern boundaries are finite; all boundaries are
    finite numbers if and only if the profile does not jump from minus infinity
    to a finite value above k. *)
Theorem C75_finite_iff_partial res rs om nt g ks k z kc : mk_grid res rs om nt = Ok g ->
  length ks = g_nlat g -> not_nan ks -> Forall2 stands_for z ks -> stands_for kc (Fin k) ->
  exists W, extract_ks_waveguides g z kc = Ok W
    /\ (forall s e, In (s, e) W -> exists y, e = Fin y /\ -90 <= y <= 90)
    /\ ((forall s e, In (s, e) W -> exists x y, s = Fin x /\ e = Fin y) <-> ~ jumps k ks)
    /\ (jumps k ks -> exists e, In (NaN, e) W).
Proof.
  intros Hg Hl Hn Hz Hk. destruct (extract_nan _ _ _ _ _ Hg ks k Hl Hn z kc Hz Hk) as [W [E [H1 H2]]].
  exists W. split; [auto|]. split; [auto|]. split; [|auto]. split.
  - intros H J. destruct (H2 J) as [e He]. destruct (H _ _ He) as [x [y [A _]]]. discriminate.
  - intros J s e Hin. destruct (extract_ok _ _ _ _ _ Hg ks k Hl Hn z kc Hz Hk J) as [L [E' _]].
    assert (W = intervals L) by congruence. subst W. unfold intervals in Hin. apply in_map_iff in Hin.
    destruct Hin as [[x y] [A _]]. injection A as <- <-. eauto.
Qed.
Print Assumptions C75_finite_iff_partial.

(** The variants 'complex' and 'real' of a stationary wavenumber have the same
    waveguides. *)
Theorem C74_same_variants res rs om nt g o order u u1 pv min_u k : mk_grid res rs om nt = Ok g ->
  denotes order o -> (S (ord o) <= g_nlat g)%nat -> 0 <= min_u -> profile_of g u u1 ->
  (forall f, pv = Some f -> exists q, profile_of g f q) ->
  exists cx re W, stationary_wavenumber g u pv order min_u "complex" = Ok (KsComplex cx)
    /\ stationary_wavenumber g u pv order min_u "real" = Ok (KsReal re)
    /\ length re = g_nlat g /\ not_nan re /\ Forall2 stands_for cx re
    /\ extract_ks_waveguides g cx (Fin k, Fin 0) = Ok W
    /\ extract_ks_waveguides g (map (fun x => (x, Fin 0)) re) (Fin k, Fin 0) = Ok W.
Proof.
  intros Hg Hd Hn Hm Hu Hpv.
  destruct (C72_not_nan _ _ _ _ _ o order u u1 pv min_u Hg Hd Hn Hm Hu Hpv) as [sq [Es [Ls Nn]]].
  destruct (C72_variants _ _ _ _ _ _ Es) as [cx [re [E1 [E2 [L1 [L2 [V _]]]]]]].
  assert (N : forall i, (i < length sq)%nat -> nth i sq NaN <> NaN).
  { intros i Hi. unfold not_nan in Nn. rewrite Forall_forall in Nn. apply Nn. now apply nth_In. }
  assert (F1 : Forall2 stands_for cx re).
  { apply Forall2_nth_iff with (d := (NaN, NaN)) (d' := NaN). split; [lia|]. intros i Hi.
    apply (variants_stand (nth i sq NaN)); [apply V|apply N]; lia. }
  assert (F2 : Forall2 stands_for (map (fun x => (x, Fin 0)) re) re).
  { clear - V N L2. apply Forall2_nth_iff with (d := (NaN, Fin 0)) (d' := NaN). rewrite map_length. split; [lia|]. intros i Hi.
    rewrite (nth_map_lt _ _ _ NaN) by auto. eapply (variants_stand (nth i sq NaN)); [apply V|apply N]; lia. }
  assert (Nr : not_nan re).
  { apply Forall_forall. intros a Ha. destruct (In_nth _ _ NaN Ha) as [i [Hi <-]].
    destruct (variants_stand _ _ _ (V i ltac:(lia)) (N i ltac:(lia))) as [_ S2]. now apply stands_for_nan in S2. }
  assert (K : stands_for (Fin k, Fin 0) (Fin k)) by (apply sf_real; discriminate).
  exists cx, re. eexists. split; [auto|]. split; [auto|]. split; [lia|]. split; [auto|]. split; [auto|].
  rewrite (extract_form _ _ _ _ _ Hg re k ltac:(lia) Nr cx _ F1 K).
  rewrite (extract_form _ _ _ _ _ Hg re k ltac:(lia) Nr _ _ F2 K). auto.
Qed.
Print Assumptions C74_same_variants.

(** ** Examples and refutations *)
(** resolution 45: latitudes 90, 45, 0, -45, -90 *)
Definition grid45 : grid := mkGrid 45 1 0 8 5 4.
Lemma grid45_ok : mk_grid 45 1 0 None = Ok grid45.
Proof. apply (mk_grid_Ok 45 1 0 8 4); lra || lia. Qed.
Lemma grid45_lat : g_lat grid45 = [90; 45; 0; -45; -90].
Proof.
  unfold g_lat, linspace_end, tab. cbn [g_nlat grid45 Nat.sub seq map INR].
  repeat (apply (f_equal2 (@cons R)); [lra|]). reflexivity.
Qed.
Definition D45 : R := / 2 / deg2rad (-45).
Lemma D45_sq : / 4 <= D45 * D45.
Proof.
  unfold D45, deg2rad. pose proof PI_RGT_0. pose proof PI_4.
  replace (/ 2 / (-45 * PI / 180) * (/ 2 / (-45 * PI / 180))) with ((2 / PI) * (2 / PI)) by (field; lra).
  assert (/ 2 <= 2 / PI). { apply Rmult_le_reg_r with PI; [lra|]. replace (2 / PI * PI) with 2 by (field; lra). lra. }
  nra.
Qed.
Lemma grid45_derivative a b c d e : derivative_meridional grid45 (A1 [a; b; c; d; e]) (ONum 2)
  = Ok (A1 [0; (c - a) * D45; (d - b) * D45; (e - c) * D45; 0]).
Proof.
  pose proof PI_RGT_0.
  unfold derivative_meridional. replace (Reqb 2 2) with true by (symmetry; now apply Reqb_true).
  cbn [grid45 g_nlat Nat.leb passert length]. f_equal. f_equal. unfold tab, stencil2, is_pole. cbn - [Rdiv Rmult Rplus Rminus g_dphi D45].
  unfold g_dphi, g_dlat. cbn [g_res grid45]. unfold D45, deg2rad.
  repeat (apply (f_equal2 (@cons R)); [field; lra|]). reflexivity.
Qed.
Lemma np_cosd_0 : np_cosd 0 = 1.
Proof.
  unfold np_cosd. replace (deg2rad 0) with 0 by (unfold deg2rad; lra). rewrite cos_0.
  destruct (Req_EM_T 1 0); lra.
Qed.
Lemma np_cosd_even y : np_cosd (- y) = np_cosd y.
Proof. unfold np_cosd. replace (deg2rad (- y)) with (- deg2rad y) by (unfold deg2rad; lra). now rewrite cos_neg. Qed.
Lemma np_cosd_45 : 0 < np_cosd 45 <= 1.
Proof.
  split; [apply np_cosd_pos; lra|]. unfold np_cosd. destruct (Req_EM_T _ 0) as [E|E].
  - exfalso. assert (0 < cos (deg2rad 45)); [|lra]. pose proof PI_RGT_0. apply cos_gt_0; unfold deg2rad; lra.
  - apply COS_bound.
Qed.

(** u = 0, 0, 1, 1, 0 from north to south on a non-rotating planet *)
Definition u45 : vec := [0; 0; 1; 1; 0].
Lemma u45_ks : exists x, / 2 < x /\
  (exists a, stationary_wavenumber grid45 (A1 u45) None (ONum 2) (/ 1000) "real" = Ok (KsReal [Fin 0; NInf; Fin x; a; Fin 0])).
Proof.
  pose proof D45_sq as DS. pose proof np_cosd_45 as C. set (c := np_cosd 45) in *.
  assert (Hu : profile_of grid45 (A1 u45) u45) by (split; [reflexivity|left; reflexivity]).
  destruct (ks_pv_wind _ _ _ _ _ grid45_ok O2 (ONum 2) u45 [0; D45; c * D45; - D45; 0]) as [q [Eq [Lq [Q0 [Q1 Q2]]]]];
    [reflexivity|cbn; lia|reflexivity| |].
  { rewrite grid45_lat. cbn [map map2 u45]. rewrite np_cosd_0. replace (-45) with (- (45)) by lra. rewrite np_cosd_even. fold c.
    rewrite grid45_derivative. do 2 f_equal. repeat (apply (f_equal2 (@cons R)); [ring|]). reflexivity. }
  cbn [grid45 g_nlat Nat.sub] in *.
  assert (Cor : forall y, coriolis grid45 y = 0) by (intros y; unfold coriolis; cbn [g_omega grid45]; ring).
  rewrite Cor in Q0, Q1. pose proof (Q2 1%nat ltac:(lia)) as R1. pose proof (Q2 2%nat ltac:(lia)) as R2. pose proof (Q2 3%nat ltac:(lia)) as R3.
  rewrite Cor, <- (np_cosd_inner _ _ _ _ _ grid45_ok) in R1 by (cbn; lia).
  rewrite Cor, <- (np_cosd_inner _ _ _ _ _ grid45_ok) in R2 by (cbn; lia).
  rewrite Cor, <- (np_cosd_inner _ _ _ _ _ grid45_ok) in R3 by (cbn; lia).
  rewrite grid45_lat in R1, R2, R3. cbn [nth] in R1, R2, R3. rewrite np_cosd_0 in R2.
  replace (-45) with (- (45)) in R3 by lra. rewrite np_cosd_even in R3. fold c in R1, R3.
  destruct q as [|q0 [|q1 [|q2 [|q3 [|q4 [|]]]]]]; try discriminate Lq. cbn [nth] in *.
  pose proof (grid45_derivative q0 q1 q2 q3 q4) as Ed.
  destruct (ks_squared_form _ _ _ _ _ grid45_ok O2 (ONum 2) (A1 u45) u45 None _ _ (/ 1000) eq_refl ltac:(cbn; lia) ltac:(lra) Hu Eq Lq Ed)
    as [sq [Es [Ls [S0 [S4 S]]]]].
  cbn [grid45 g_nlat Nat.sub] in *.
  destruct sq as [|s0 [|s1 [|s2 [|s3 [|s4 [|]]]]]]; try discriminate Ls. cbn [nth] in S0, S4. subst s0 s4.
  destruct (S 1%nat ltac:(lia)) as [_ T1]. destruct (S 2%nat ltac:(lia)) as [T2 _]. destruct (S 3%nat ltac:(lia)) as [T3 _].
  rewrite <- (np_cosd_inner _ _ _ _ _ grid45_ok) in T2 by (cbn; lia). rewrite grid45_lat in T2.
  cbn [nth u45] in T1, T2, T3. rewrite np_cosd_0 in T2. rewrite Rabs_R0 in T1. rewrite Rabs_R1 in T2, T3.
  destruct (T1 ltac:(lra)) as [_ [_ T1']]. clear T1.
  assert (E1 : s1 = NInf). { apply T1'. rewrite R2, Q0. replace (_ * D45) with (- c * (D45 * D45)) by field. nra. }
  specialize (T2 ltac:(lra)). specialize (T3 ltac:(lra)). clear T1' S.
  set (X := 1 * 1 ^ 2 * ((q3 - q1) * D45) / 1) in T2.
  assert (HX : / 2 <= X).
  { unfold X. rewrite R1, R3.
    match goal with |- _ <= ?e => replace e with (2 * (D45 * D45) * (/ c)) by (field; lra) end.
    assert (1 <= / c). { rewrite <- Rinv_1. apply Rinv_le_contravar; lra. } nra. }
  exists (sqrt X). split.
  { apply Rlt_le_trans with (sqrt (/ 2)); [|apply sqrt_le_1; lra].
    rewrite <- (sqrt_Rsqr (/ 2)) at 1 by lra. apply sqrt_lt_1; unfold Rsqr; lra. }
  exists (real_minus_imag (csqrt_real s3)).
  unfold stationary_wavenumber. rewrite Es. cbn [bind String.eqb Ascii.eqb Bool.eqb map].
  rewrite E1, T2. f_equal. f_equal. f_equal.
  - unfold csqrt_real. replace (Rltb 0 0) with false by (symmetry; apply Rltb_false; lra). rewrite sqrt_0.
    unfold real_minus_imag, esub. cbn [fst snd eopp eadd]. f_equal. ring.
  - f_equal. f_equal.
    + unfold csqrt_real. replace (Rltb X 0) with false by (symmetry; apply Rltb_false; lra).
      unfold real_minus_imag, esub. cbn [fst snd eopp eadd]. f_equal. ring.
    + do 2 f_equal. unfold csqrt_real. replace (Rltb 0 0) with false by (symmetry; apply Rltb_false; lra). rewrite sqrt_0.
      unfold real_minus_imag, esub. cbn [fst snd eopp eadd]. f_equal. ring.
Qed.

(** C73 and C75 fail for a wind profile whose Ks goes from minus infinity at 45
    degrees north to a finite value: one waveguide starts at NaN. *)
Theorem C75_refuted : exists g u ks W e, mk_grid 45 1 0 None = Ok g
  /\ stationary_wavenumber g (A1 u) None (ONum 2) (/ 1000) "complex" = Ok (KsComplex ks)
  /\ extract_ks_waveguides g ks (Fin (/ 2), Fin 0) = Ok W /\ In (NaN, e) W.
Proof.
  destruct u45_ks as [x [Hx [a E]]].
  assert (Hu : profile_of grid45 (A1 u45) u45) by (split; [reflexivity|left; reflexivity]).
  destruct (C74_same_variants _ _ _ _ _ O2 (ONum 2) (A1 u45) u45 None (/ 1000) (/ 2) grid45_ok eq_refl ltac:(cbn; lia) ltac:(lra) Hu ltac:(discriminate))
    as [cx [re [W [E1 [E2 [Lr [Nr [F1 [E3 _]]]]]]]]].
  assert (re = [Fin 0; NInf; Fin x; a; Fin 0]) by congruence. subst re.
  destruct (C75_finite_iff_partial _ _ _ _ _ _ (/ 2) cx (Fin (/ 2), Fin 0) grid45_ok Lr Nr F1) as [W' [E4 [_ [_ J]]]].
  { apply sf_real. discriminate. }
  destruct J as [e He]. { exists 1%nat, x. cbn. repeat split; auto; lia. }
  exists grid45, u45, cx, W', e. split; [apply grid45_ok|]. auto.
Qed.
Print Assumptions C75_refuted.

Theorem C73_refuted : exists g u ks W, mk_grid 45 1 0 None = Ok g
  /\ stationary_wavenumber g (A1 u) None (ONum 2) (/ 1000) "complex" = Ok (KsComplex ks)
  /\ extract_ks_waveguides g ks (Fin (/ 2), Fin 0) = Ok W
  /\ ~ exists L, W = intervals L /\ north_to_south 90 L.
Proof.
  destruct C75_refuted as [g [u [ks [W [e [H1 [H2 [H3 H4]]]]]]]]. exists g, u, ks, W. repeat split; auto.
  intros [L [-> _]]. unfold intervals in H4. apply in_map_iff in H4. destruct H4 as [[x y] [A _]]. discriminate.
Qed.
Print Assumptions C73_refuted.

(** C74, an infinite value: latitudes with Ks < k lie on the boundaries. *)
Theorem C74_infinite_refuted : exists g ks k W s e, mk_grid 90 1 0 None = Ok g
  /\ ks = [Fin 0; PInf; Fin 0] /\ g_lat g = [90; 0; -90] /\ k = 1
  /\ extract_ks_waveguides g (map (fun x => (x, Fin 0)) ks) (Fin k, Fin 0) = Ok W
  /\ W = [(Fin s, Fin e)] /\ e <= 90 <= s /\ e <= -90 <= s.
Proof.
  exists (gridA 1), [Fin 0; PInf; Fin 0], 1, [(Fin 90, Fin (-90))], 90, (-90).
  split; [apply gridA_ok; lra|]. split; [reflexivity|].
  assert (EL : g_lat (gridA 1) = [90; 0; -90]).
  { unfold g_lat, linspace_end, tab. cbn [g_nlat gridA Nat.sub seq map INR].
    repeat (apply (f_equal2 (@cons R)); [lra|]). reflexivity. }
  split; [auto|]. split; [reflexivity|]. split.
  - unfold extract_ks_waveguides. rewrite EL. cbn [map removelast tl hd zip3 last].
    unfold real_minus_imag, esub. cbn [fst snd eopp eadd wg_loop eleb].
    replace (Rleb (1 + - 0) (0 + - 0)) with false by (symmetry; apply Rleb_false; lra). cbn [andb negb eltb wg_start is_inf].
    replace (Rltb (0 + - 0) (1 + - 0)) with true by (symmetry; apply Rltb_true; lra). cbn [wg_end is_inf].
    unfold wg_start, wg_end. cbn [is_inf]. unfold g_dlat. cbn [gridA g_res]. do 4 f_equal. lra.
  - split; [reflexivity|]. lra.
Qed.
Print Assumptions C74_infinite_refuted.

Lemma loop7_tail g ks : (forall i, (0 < i < 26)%nat -> nth i ks NaN = Fin 0) ->
  forall m i st, (1 <= i)%nat -> (i + m <= 25)%nat -> wg_loop g (Fin (/ 2)) (map (seg g ks) (seq i m)) false st = nil.
Proof.
  intros Hk. induction m as [|m IH]; intros i st Hi Hm; [reflexivity|]. cbn [seq map wg_loop]. unfold seg at 1. cbn [andb negb].
  rewrite !(Hk (S i)) by lia.
  cbn [eltb]. replace (Rltb (/ 2) 0) with false by (symmetry; apply Rltb_false; lra). apply IH; lia.
Qed.
Lemma loop7 res rs om nt g ks : mk_grid res rs om nt = Ok g -> res = 7 -> nth 0 (g_lat g) 0 = 90 ->
  nth 0 ks NaN = Fin 1 -> (forall i, (0 < i < 26)%nat -> nth i ks NaN = Fin 0) -> forall m, (m <= 24)%nat ->
  wg_loop g (Fin (/ 2)) (map (seg g ks) (seq 0 (S m))) true (Fin 90) = [(Fin 90, Fin (865 / 10))].
Proof.
  intros Hg Hr L0 K0 Hk m Hm. cbn [seq map wg_loop]. unfold seg at 1. rewrite (Hk 1%nat) by lia. rewrite K0, L0.
  cbn [andb eltb]. replace (Rltb 0 (/ 2)) with true by (symmetry; apply Rltb_true; lra).
  unfold wg_end. cbn [is_inf]. rewrite (cross_fin _ _ _ _ _ Hg) by lra. rewrite (loop7_tail g ks Hk) by lia.
  rewrite Hr. replace (90 - 7 * ((/ 2 - 1) / (0 - 1))) with (865 / 10) by lra. reflexivity.
Qed.

(** C74, resolution 7: the latitudes are 7.2 degrees apart and the boundary
    (86.5) is not at the crossing (86.4). *)
Theorem C74_crossings_refuted : exists g ks W, mk_grid 7 1 1 None = Ok g
  /\ length ks = g_nlat g /\ all_finite ks /\ nth 0 ks NaN = Fin 1 /\ nth 1 ks NaN = Fin 0
  /\ (forall i, (1 < i < g_nlat g)%nat -> nth i ks NaN = Fin 0)
  /\ extract_ks_waveguides g (map (fun x => (x, Fin 0)) ks) (Fin (/ 2), Fin 0) = Ok W
  /\ W = [(Fin 90, Fin (865 / 10))]
  /\ on_segment (/ 2) (864 / 10) (nth 0 (g_lat g) 0) 1 (nth 1 (g_lat g) 0) 0
  /\ ~ on_segment (/ 2) (865 / 10) (nth 0 (g_lat g) 0) 1 (nth 1 (g_lat g) 0) 0.
Proof.
  destruct grid7 as [g [Hg [_ [N _]]]].
  assert (HK : exists ks, length ks = 26%nat /\ nth 0 ks NaN = Fin 1 /\ forall i, (0 < i < 26)%nat -> nth i ks NaN = Fin 0).
  { exists (Fin 1 :: repeat (Fin 0) 25). split; [reflexivity|]. split; [reflexivity|].
    intros [|i] Hi; [lia|]. cbn [nth]. rewrite (nth_indep _ NaN (Fin 0)) by (rewrite repeat_length; lia). apply nth_repeat. }
  destruct HK as [ks [Lk0 [K0 Hk]]].
  assert (Lk : length ks = g_nlat g) by (rewrite N; auto).
  assert (AF : all_finite ks).
  { apply Forall_forall. intros a Ha. destruct (In_nth _ _ NaN Ha) as [i [Hi <-]].
    destruct (Nat.eq_dec i 0) as [->|H0]; [eauto|]. rewrite Hk by lia. eauto. }
  assert (NN : not_nan ks).
  { eapply Forall_impl; [|exact AF]. intros a [x ->]. discriminate. }
  assert (F : Forall2 stands_for (map (fun x => (x, Fin 0)) ks) ks).
  { clear - NN. unfold not_nan in NN. induction NN; cbn [map]; constructor; auto. now apply sf_real. }
  assert (K : stands_for (Fin (/ 2), Fin 0) (Fin (/ 2))) by (apply sf_real; discriminate).
  assert (L0 : nth 0 (g_lat g) 0 = 90) by (rewrite lat_nth by lia; cbn [INR]; lra).
  assert (L1 : nth 1 (g_lat g) 0 = 90 - 72 / 10).
  { rewrite lat_nth by lia. rewrite N. cbn [Nat.sub]. rewrite (INR_IZR_INZ 25), (INR_IZR_INZ 1). cbn [Z.of_nat Pos.of_succ_nat Pos.succ]. lra. }
  exists g, ks, [(Fin 90, Fin (865 / 10))]. split; [auto|]. split; [auto|]. split; [auto|].
  split; [auto|]. split; [apply Hk; lia|]. split; [intros i Hi; apply Hk; lia|].
  split; [|split; [reflexivity|]].
  - rewrite (extract_form _ _ _ _ _ Hg ks (/ 2) Lk NN _ _ F K). f_equal. rewrite L0, K0.
    replace (g_nlat g - 1)%nat with (S 24) by lia.
    cbn [eleb]. replace (Rleb (/ 2) 1) with true by (symmetry; apply Rleb_true; lra).
    apply (loop7 7 1 1 None); auto.
  - rewrite L0, L1. split.
    + exists (/ 2). lra.
    + intros [t [T1 [T2 T3]]]. lra.
Qed.
Print Assumptions C74_crossings_refuted.

Example C72_nonvacuous : profile_of grid45 (A1 u45) u45 /\ denotes (ONum 2) O2 /\ (S (ord O2) <= g_nlat grid45)%nat
  /\ mk_grid 45 1 0 None = Ok grid45
  /\ exists x a, / 2 < x /\ stationary_wavenumber grid45 (A1 u45) None (ONum 2) (/ 1000) "real"
       = Ok (KsReal [Fin 0; NInf; Fin x; a; Fin 0]).
Proof.
  split; [split; [reflexivity|left; reflexivity]|]. split; [reflexivity|]. split; [cbn; lia|].
  split; [apply grid45_ok|]. destruct u45_ks as [x [Hx [a E]]]. eauto.
Qed.

(** a profile with values on both sides of k = 2, at k, and infinite *)
Example C73_C74_C75_nonvacuous :
  let ks := [Fin 1; Fin 3; Fin 2; PInf; NInf] in
  length ks = g_nlat grid45 /\ not_nan ks /\ ~ jumps 2 ks /\ is_integer (180 / 45)
  /\ Forall2 stands_for [(Fin 1, Fin 0); (Fin 3, Fin 0); (Fin 2, Fin 0); (PInf, Fin 0); (Fin 0, PInf)] ks
  /\ stands_for (Fin 2, Fin 0) (Fin 2).
Proof.
  intros ks. split; [reflexivity|]. split; [repeat constructor; discriminate|]. split.
  { intros [i [x [Hi [E1 [E2 Hx]]]]]. unfold ks in *. do 5 (destruct i as [|i]; [cbn in *; try discriminate; try lia|]). cbn in Hi. lia. }
  split; [exists 4%Z; lra|]. split; [|apply sf_real; discriminate].
  repeat constructor; discriminate.
Qed.
