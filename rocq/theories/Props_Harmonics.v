(** C133: spherical harmonics on every grid meet the assumptions on the transforms. *)
From Coq Require Export String.
From Verif Require Import Base Model_Grid Model_Time Model_Spectral Model_State Model_Run.
From Verif Require Import Spec_Grid Spec_Spectral Spec_State Spec_Run Spec_Calculus Spec_Sym Spec_Symmetry Spec_SymForcing Spec_Relax Spec_Waves Spec_Harmonics.
From Verif Require Import Proofs_Base Proofs_Trig Proofs_Grid Proofs_Spectral Proofs_Relax Proofs_Legendre Proofs_HarmQuad Proofs_HarmSum Proofs_Harmonics Proofs_HarmSym Proofs_HarmProd Proofs_HarmField.
From Verif Require Import Props_Symmetry Props_Waves.
From Coquelicot Require Import Coquelicot.
From Coq Require Import List Lia Lra.
Import ListNotations.
Open Scope R_scope.

(** The transforms sample functions of latitude and longitude at the points of the grid *)
Theorem C133_points : forall res rs om nt g, mk_grid res rs om nt = Ok g -> forall D x i j, (i < g_nlat g)%nat -> (j < g_nlon g)%nat ->
  mget (sh_spectogrd (sph (harmonics D) g) x) i j = sum_at h_value x (nth i (g_phi g) 0) (deg2rad (nth j (g_lon g) 0)).
Proof.
  intros res rs om nt g Hg D x i j Hi Hj. destruct (mk_grid_counts _ _ _ _ _ Hg) as [_ [P Q]].
  cbn [sph harmonics sh_spectogrd]. unfold h_synthesis, sample. rewrite mget_mat_of by assumption.
  assert (A : 0 < INR (g_nlat g - 1)) by (apply lt_0_INR; lia). assert (B : 0 < INR (g_nlon g)) by now apply lt_0_INR.
  f_equal.
  - unfold g_phi, g_lat, linspace_end. rewrite tab_map, tab_nth by exact Hi. unfold row_lat, deg2rad. field. lra.
  - unfold g_lon, linspace_noend. rewrite tab_nth by exact Hj. unfold col_lon, deg2rad. field. lra.
Qed.
Print Assumptions C133_points.

(** These functions: their derivatives are what the gradient and the winds are made
    of, and the Laplacian on the unit sphere multiplies harmonics of degree n with -n*(n+1) *)
Theorem C133_laplacian : forall nt n x, of_degree nt n x -> exists Fl Fp : R -> R -> R,
  (forall phi lam, is_derive (fun t => sum_at h_value x phi t) lam (Fl phi lam) /\ is_derive (fun t => sum_at h_value x t lam) phi (Fp phi lam))
  /\ forall phi lam, cos phi <> 0 -> exists A B, is_derive (fun t => cos t * Fp t lam) phi A /\ is_derive (fun t => Fl phi t) lam B
     /\ A / cos phi + B / cos phi ^ 2 = - (INR n * (INR n + 1)) * sum_at h_value x phi lam.
Proof.
  intros nt n x [X Z]. exists (fun phi lam => cos phi * sum_at h_east (map i_times x) phi lam), (sum_at h_north x). split.
  - intros phi lam. split; [now apply (field_east nt)|now apply (field_north nt)].
  - intros phi lam C. set (c := - (INR n * (INR n + 1))).
    destruct (field_laplacian nt x X phi lam (map (Cmult (RtoC c)) x)) as [A [B [HA [HB E]]]]; [now rewrite map_length| |exact C|].
    + intros k Hk. unfold coef. rewrite (nth_indep _ _ (Cmult (RtoC c) (RtoC 0))) by (rewrite map_length; lia). rewrite map_nth. fold (coef x k).
      destruct (Nat.eq_dec (degree nt k) n) as [->|N]; [reflexivity|]. rewrite (Z k Hk N). now rewrite !Cmult_0_r.
    + exists A, B. split; [exact HA|]. split; [exact HB|]. rewrite E. rewrite !(sum_at_eq nt) by (rewrite ?map_length; exact X). rewrite <- Rsum_tab_scal. f_equal. apply tab_ext. intros k Hk.
      unfold coef. rewrite (nth_indep _ _ (Cmult (RtoC c) (RtoC 0))) by (rewrite map_length; lia). rewrite map_nth.
      unfold swing. destruct (nth k x (RtoC 0)) as [p q]. cbn [Re Im Cmult RtoC fst snd]. ring.
Qed.
Print Assumptions C133_laplacian.
Theorem C133_gradient : forall res rs om nt g, mk_grid res rs om nt = Ok g -> forall D x i j, (i < g_nlat g)%nat -> (j < g_nlon g)%nat -> length x = nspec (g_ntrunc g) ->
  let phi := row_lat (g_nlat g) i in let lam := col_lon (g_nlon g) j in let w := sh_getgrad (sph (harmonics D) g) x in
  is_derive (fun t => sum_at h_value x phi t) lam (rs * cos phi * mget (fst w) i j) /\ is_derive (fun t => sum_at h_value x t lam) phi (rs * mget (snd w) i j).
Proof.
  intros res rs om nt g Hg D x i j Hi Hj X phi lam w. pose proof (gf_rs_pos _ _ _ _ (mk_grid_facts _ _ _ _ _ Hg)) as R0. pose proof (gf_rs _ _ _ _ (mk_grid_facts _ _ _ _ _ Hg)) as RS.
  unfold w. cbn [sph harmonics sh_getgrad]. unfold sph, harmonics. cbn [sh_getgrad]. rewrite RS. unfold h_getgrad, sample. cbn [fst snd]. rewrite !mget_mat_of by assumption. fold phi lam. split.
  - replace (rs * cos phi * (sum_at h_east (map i_times x) phi lam / rs)) with (cos phi * sum_at h_east (map i_times x) phi lam) by (field; lra). now apply (field_east (g_ntrunc g)).
  - replace (rs * (sum_at h_north x phi lam / rs)) with (sum_at h_north x phi lam) by (field; lra). now apply (field_north (g_ntrunc g)).
Qed.
Print Assumptions C133_gradient.
(** winds without divergence are those of a streamfunction whose Laplacian is the vorticity *)
Theorem C133_wind : forall res rs om nt g, mk_grid res rs om nt = Ok g -> forall D z, length z = nspec (g_ntrunc g) -> coef z 0 = RtoC 0 ->
  let w := sh_getuv (sph (harmonics D) g) z (repeat (RtoC 0) (nspec (g_ntrunc g))) in
  exists psi Fl Fp : R -> R -> R,
  (forall phi lam, is_derive (fun t => psi phi t) lam (Fl phi lam) /\ is_derive (fun t => psi t lam) phi (Fp phi lam))
  /\ (forall i j, (i < g_nlat g)%nat -> (j < g_nlon g)%nat ->
      let phi := row_lat (g_nlat g) i in let lam := col_lon (g_nlon g) j in
      Fp phi lam = - rs * mget (fst w) i j /\ Fl phi lam = rs * cos phi * mget (snd w) i j)
  /\ forall phi lam, cos phi <> 0 -> exists A B, is_derive (fun t => cos t * Fp t lam) phi A /\ is_derive (fun t => Fl phi t) lam B
     /\ (A / cos phi + B / cos phi ^ 2) / (rs * rs) = sum_at h_value z phi lam.
Proof.
  intros res rs om nt g Hg D z Z Z0 w. pose proof (gf_rs_pos _ _ _ _ (mk_grid_facts _ _ _ _ _ Hg)) as R0. pose proof (gf_rs _ _ _ _ (mk_grid_facts _ _ _ _ _ Hg)) as RS.
  set (L := nspec (g_ntrunc g)) in *. set (q := potential rs z). assert (Q : length q = L) by (unfold q; now rewrite potential_length).
  exists (sum_at h_value q), (fun phi lam => cos phi * sum_at h_east (map i_times q) phi lam), (sum_at h_north q). split; [|split].
  - intros phi lam. split; [now apply (field_east (g_ntrunc g))|now apply (field_north (g_ntrunc g))].
  - intros i j Hi Hj phi lam. unfold w, sph, harmonics. cbn [sh_getuv]. rewrite RS. unfold h_getuv, sample. cbn [fst snd]. rewrite !mget_mat_of by assumption. fold phi lam q.
    assert (O : forall h, sum_at h (potential rs (repeat (RtoC 0) L)) phi lam = 0 /\ sum_at h (map i_times (potential rs (repeat (RtoC 0) L))) phi lam = 0).
    { intros h. rewrite !(sum_at_eq (g_ntrunc g)) by (rewrite ?map_length, potential_length; apply repeat_length).
      split; (transitivity (Rsum (tab L (fun _ => 0))); [f_equal; apply tab_ext; intros k Hk|apply Rsum_tab_zero; reflexivity]); rewrite ?coef_i_times, (potential_zeros (g_ntrunc g) rs) by exact Hk; unfold swing, i_times; cbn; ring. }
    destruct (O h_north) as [-> _]. destruct (O h_east) as [_ ->]. split; field; lra.
  - intros phi lam C. destruct (field_laplacian (g_ntrunc g) q Q phi lam (map (Cmult (RtoC (rs * rs))) z)) as [A [B [HA [HB E]]]]; [now rewrite map_length| |exact C|].
    + intros k Hk. unfold coef at 1. rewrite (nth_indep _ _ (Cmult (RtoC (rs * rs)) (RtoC 0))) by (rewrite map_length; unfold L in Z; lia). rewrite map_nth. fold (coef z k).
      unfold q. rewrite (coef_potential (g_ntrunc g)) by assumption. destruct (Nat.eqb_spec (degree (g_ntrunc g) k) 0) as [E0|N].
      * assert (k = 0%nat) as ->. { pose proof (Proofs_Spectral.nspec_pos (g_ntrunc g)). apply (index_inj (g_ntrunc g)); [exact Hk|lia| |]; [pose proof (order_degree (g_ntrunc g) k Hk); rewrite order_0; lia|rewrite E0; reflexivity]. }
        rewrite Z0. now rewrite !Cmult_0_r.
      * assert (0 < INR (degree (g_ntrunc g) k)) by (apply lt_0_INR; lia). rewrite Cmult_assoc. f_equal. rewrite <- RtoC_mult. f_equal. unfold eigenvalue. field. lra.
    + exists A, B. split; [exact HA|]. split; [exact HB|]. rewrite E. rewrite !(sum_at_eq (g_ntrunc g)) by (rewrite ?map_length; exact Z). unfold Rdiv. rewrite <- Rsum_tab_scal_r. f_equal. apply tab_ext. intros k Hk.
      unfold coef. rewrite (nth_indep _ _ (Cmult (RtoC (rs * rs)) (RtoC 0))) by (rewrite map_length; unfold L in Z; lia). rewrite map_nth.
      unfold swing. destruct (nth k z (RtoC 0)) as [p s]. cbn [Re Im Cmult RtoC fst snd]. field. lra.
Qed.
Print Assumptions C133_wind.

(** Harmonics up to degree D < nlat/2, nlon/2 are transformed exactly *)
Theorem C133_transforms : forall res rs om nt g, mk_grid res rs om nt = Ok g -> forall D, (2 * D < g_nlat g)%nat -> (2 * D < g_nlon g)%nat ->
  exact_on (harmonics D) g /\ calculus_on (harmonics D) g /\ resolved_divergence (harmonics D) g.
Proof.
  intros res rs om nt g Hg D H1 H2. destruct (mk_grid_counts _ _ _ _ _ Hg) as [_ [P Q]].
  pose proof (gf_rs_pos _ _ _ _ (mk_grid_facts _ _ _ _ _ Hg)) as R0. pose proof (gf_rs _ _ _ _ (mk_grid_facts _ _ _ _ _ Hg)) as RS. rewrite <- RS in R0.
  split; [apply harmonics_exact; try assumption; lia|]. split; [apply harmonics_calculus; try assumption; lia|].
  intros u v Hu Hv. apply resolved_eq; try assumption; try lia.
  - cbn. apply tab_length.
  - cbn [sph harmonics sh_getvrtdivspec snd]. unfold sph, harmonics. cbn [sh_getvrtdivspec]. unfold h_getvrtdiv. cbn [snd]. split; [eapply coefs_truncated; try eassumption; lia|].
    apply coefs_real. intros n.
    assert (S0 : Im (correlate h_north (g_nlat g) (g_nlon g) 0 n v) = 0).
    { unfold correlate. cbn [Im snd]. rewrite Rsum_tab_zero; [ring|]. intros i Hi. rewrite (Rsum_tab_zero (g_nlon g)); [unfold Rdiv; ring|]. intros j Hj. change (INR 0) with 0. rewrite Rmult_0_l, sin_0. ring. }
    assert (R1 : Re (correlate h_east (g_nlat g) (g_nlon g) 0 n u) = 0).
    { unfold correlate, h_east. cbn [Re fst]. apply Rsum_tab_zero. intros i Hi. change (INR 0) with 0. ring. }
    destruct (correlate h_east (g_nlat g) (g_nlon g) 0 n u) as [p q]. destruct (correlate h_north (g_nlat g) (g_nlon g) 0 n v) as [p' q'].
    unfold i_times. cbn in S0, R1 |- *. rewrite S0, R1. ring.
Qed.
Print Assumptions C133_transforms.
(** exactly the fields made of them are resolved *)
Theorem C133_resolved : forall res rs om nt g, mk_grid res rs om nt = Ok g -> forall D, (2 * D < g_nlat g)%nat -> (2 * D < g_nlon g)%nat ->
  forall x, length x = nspec (g_ntrunc g) -> (resolved (sph (harmonics D) g) (g_ntrunc g) x
  <-> forall k, (k < nspec (g_ntrunc g))%nat -> ((D < degree (g_ntrunc g) k)%nat -> coef x k = RtoC 0) /\ (order (g_ntrunc g) k = 0%nat -> Im (coef x k) = 0)).
Proof.
  intros res rs om nt g Hg D H1 H2 x X. destruct (mk_grid_counts _ _ _ _ _ Hg) as [_ [P Q]]. unfold sph.
  rewrite (resolved_eq (g_nlat g) (g_nlon g) D (g_ntrunc g) (g_rsphere g)) by (try assumption; lia). split.
  - intros [[_ A] B] k Hk. split; [now apply A|now apply B].
  - intros H. split; [split; [exact X|]|]; intros k Hk; apply H, Hk.
Qed.
Print Assumptions C133_resolved.
(** rotations about the axis, reflections in the equator and in a meridian act on them as assumed *)
Theorem C133_symmetries : forall res rs om nt g, mk_grid res rs om nt = Ok g -> forall D,
  rotates (harmonics D) g /\ reflects (harmonics D) g /\ reverses (harmonics D) g /\ gradient_rotates (harmonics D) g /\ gradient_reflects (harmonics D) g.
Proof.
  intros res rs om nt g Hg D. destruct (mk_grid_counts _ _ _ _ _ Hg) as [_ [P Q]].
  pose proof (gf_rs_pos _ _ _ _ (mk_grid_facts _ _ _ _ _ Hg)) as R0. pose proof (gf_rs _ _ _ _ (mk_grid_facts _ _ _ _ _ Hg)) as RS. rewrite <- RS in R0.
  split; [apply harmonics_rotate; assumption|]. split; [apply harmonics_reflect; assumption|]. split; [apply harmonics_reverse; assumption|]. split.
  - intros x X. apply harmonics_gradient_rotates; assumption.
  - intros s x X. apply harmonics_gradient_reflects; assumption.
Qed.
Print Assumptions C133_symmetries.
(** products of harmonics of degree n <= D are free of aliasing on grids with 2n+D <= nlat, 2n+D < nlon *)
Theorem C133_products : forall res rs om nt g, mk_grid res rs om nt = Ok g -> (1 <= g_ntrunc g)%nat -> forall D n, (1 <= n <= D)%nat ->
  (2 * D < g_nlat g)%nat -> (2 * D < g_nlon g)%nat -> (2 * n + D <= g_nlat g)%nat -> (2 * n + D < g_nlon g)%nat -> products_on (harmonics D) g n.
Proof.
  intros res rs om nt g Hg NT D n Hn H1 H2 H3 H4. destruct (mk_grid_counts _ _ _ _ _ Hg) as [_ [P Q]].
  pose proof (gf_rs_pos _ _ _ _ (mk_grid_facts _ _ _ _ _ Hg)) as R0. pose proof (gf_rs _ _ _ _ (mk_grid_facts _ _ _ _ _ Hg)) as RS. rewrite <- RS in R0.
  apply harmonics_products; try assumption; lia.
Qed.
Print Assumptions C133_products.

(** Rossby-Haurwitz waves of these transforms, without any assumption on them:
    integrations converge to the exact solution, and the time filter damps the waves *)
Theorem C133_waves : forall res rs om nt g, mk_grid res rs om nt = Ok g -> (1 <= g_ntrunc g)%nat -> forall D n, (1 <= n <= D)%nat ->
  (2 * D < g_nlat g)%nat -> (2 * D < g_nlon g)%nat -> (2 * n + D <= g_nlat g)%nat -> (2 * n + D < g_nlon g)%nat ->
  forall (M : bmodel numR) a z t0 tend, t0 < tend -> m_rhs M = None -> m_coeff M = 0 -> of_degree (g_ntrunc g) n z ->
  (forall k, (k < nspec (g_ntrunc g))%nat -> order (g_ntrunc g) k = 0%nat -> Im (coef z k) = 0) ->
  let init := mkState g (@VNum numR t0) (sadd (rotating (harmonics D) g a) z) in forall k, (k < nspec (g_ntrunc g))%nat ->
  let w := frequency om a n (order (g_ntrunc g) k) in
  (forall eps, 0 < eps -> exists m0, forall m, (m0 <= m)%nat -> (0 < m)%nat -> forall fuel se f r,
    run (harmonics D) M fuel init (@VNum numR ((tend - t0) / INR m)) (@VNum numR tend) se = Ok (f, r) ->
    Cmod (wave_part (harmonics D) g a f k - evolved w (tend - t0) (coef z k))%C <= eps)
  /\ forall h, 0 < h -> w <> 0 -> (w * h) ^ 2 < 2 / 3 -> wave_dies (harmonics D) g M init (@VNum numR h) a k.
Proof.
  intros res rs om nt g Hg NT D n Hn H1 H2 H3 H4 M a z t0 tend Ht HM HC Z ZR init k Hk w.
  destruct (C133_transforms _ _ _ _ _ Hg D H1 H2) as [HE [_ HF]]. pose proof (C133_products _ _ _ _ _ Hg NT D n Hn H1 H2 H3 H4) as HP.
  assert (HI : rossby_wave (harmonics D) g a n z init).
  { split; [reflexivity|]. split; [exact Z|]. split; [|reflexivity]. destruct Z as [ZL ZN]. apply (C133_resolved _ _ _ _ _ Hg D H1 H2 z ZL). intros l Hl. split; [intros; apply ZN; [exact Hl|lia]|now apply ZR]. }
  split.
  - intros eps He. apply (C132_run res rs om nt g (harmonics D) Hg HE HF n HP M init a z t0 tend eq_refl Ht HI HM HC k Hk eps He).
  - intros h Hh W0 W. apply (C132_damping res rs om nt g (harmonics D) Hg HE HF n HP M init _ h a z (timed_numbers init _ _ t0 eq_refl eq_refl) Hh HI HM HC k Hk); assumption.
Qed.
Print Assumptions C133_waves.

Lemma order_from_last : forall len m, order_from m (S len) ((len + 1) * (len + 2) / 2 - 1) = (m + len)%nat.
Proof.
  assert (A : forall len, (2 * ((len + 1) * (len + 2) / 2) = (len + 1) * (len + 2))%nat) by (intros len; exact (nspec2 len)).
  induction len as [|len IH]; intros m; [cbn; lia|]. pose proof (A len). pose proof (A (S len)).
  change (order_from m (S (S len)) ((S len + 1) * (S len + 2) / 2 - 1)) with (if Nat.ltb ((S len + 1) * (S len + 2) / 2 - 1) (S (S len)) then m else order_from (S m) (S len) ((S len + 1) * (S len + 2) / 2 - 1 - S (S len))).
  set (p := ((S len + 1) * (S len + 2) / 2)%nat) in *. set (q := ((len + 1) * (len + 2) / 2)%nat) in *.
  clearbody p q. assert (P : (p = q + (len + 2))%nat) by nia. assert (1 <= q)%nat by nia. subst p.
  destruct (Nat.ltb_spec (q + (len + 2) - 1) (S (S len))) as [HL|HL]; [lia|]. replace (q + (len + 2) - 1 - S (S len))%nat with (q - 1)%nat by lia. rewrite IH. lia.
Qed.
(** Not all coefficients up to the default truncation are resolved: whatever the analysis,
    on grids with twice as many longitudes as the truncation one of them is invisible *)
Theorem C133_all_refuted : forall res rs om nt g, mk_grid res rs om nt = Ok g -> (1 <= g_ntrunc g)%nat -> g_nlon g = (2 * g_ntrunc g)%nat ->
  exists x, length x = nspec (g_ntrunc g) /\ (forall k, (k < nspec (g_ntrunc g))%nat -> order (g_ntrunc g) k = 0%nat -> Im (coef x k) = 0)
  /\ forall D (A : mat -> list C), A (sh_spectogrd (sph (harmonics D) g) x) <> x \/ A (sh_spectogrd (sph (harmonics D) g) (repeat (RtoC 0) (nspec (g_ntrunc g)))) <> repeat (RtoC 0) (nspec (g_ntrunc g)).
Proof.
  intros res rs om nt g Hg NT E. set (t := g_ntrunc g) in *. set (L := nspec t). pose proof (Proofs_Spectral.nspec_pos t) as LP. fold L in LP. assert (LL : (L - 1 < L)%nat) by (apply Nat.sub_lt; [exact LP|exact Nat.lt_0_1]).
  assert (OL : order t (L - 1) = t) by (exact (order_from_last t 0)).
  set (x := tab L (fun k => if Nat.eqb k (L - 1) then ((0, 1) : C) else RtoC 0)).
  assert (X : length x = L) by apply tab_length. assert (CX : forall k, (k < L)%nat -> coef x k = if Nat.eqb k (L - 1) then (0, 1) else RtoC 0) by (intros k Hk; unfold coef, x; now rewrite tab_nth).
  exists x. split; [exact X|]. split.
  - intros k Hk O. rewrite CX by exact Hk. destruct (Nat.eqb_spec k (L - 1)) as [->|]; [|reflexivity]. exfalso. rewrite OL in O. lia.
  - intros D A. assert (S : sh_spectogrd (sph (harmonics D) g) x = sh_spectogrd (sph (harmonics D) g) (repeat (RtoC 0) L)).
    { cbn. unfold h_synthesis, sample. apply mat_of_ext. intros i j Hi Hj. rewrite !(sum_at_eq t) by (try exact X; apply repeat_length). f_equal. apply tab_ext. intros k Hk.
      rewrite CX by exact Hk. unfold coef. rewrite nth_repeat. destruct (Nat.eqb_spec k (L - 1)) as [->|]; [|reflexivity]. rewrite OL. unfold swing. cbn [Re Im RtoC fst snd].
      unfold col_lon. rewrite E, mult_INR. change (INR 2) with 2. assert (0 < INR t) by (apply lt_0_INR; lia). replace (INR t * (2 * PI * INR j / (2 * INR t))) with (INR j * PI) by (field; lra).
      replace (sin (INR j * PI)) with 0; [ring|]. symmetry. apply sin_eq_0_1. exists (Z.of_nat j). now rewrite <- INR_IZR_INZ. }
    rewrite S. destruct (list_eq_dec Ceq_dec (A (sh_spectogrd (sph (harmonics D) g) (repeat (RtoC 0) L))) x) as [EA|]; [right|now left].
    rewrite EA. intros F. assert (G : coef x (L - 1) = coef (repeat (RtoC 0) L) (L - 1)) by now rewrite F. rewrite CX in G by exact LL. rewrite Nat.eqb_refl in G. unfold coef in G. rewrite nth_repeat in G. injection G. lra.
Qed.
Print Assumptions C133_all_refuted.

(** Example: on a grid of 2.5 degrees (73 latitudes, 144 longitudes, default truncation 72)
    harmonics up to degree 36 are transformed exactly and products of those up to degree 24
    are free of aliasing; the coefficient of order and degree 72 is invisible. *)
Lemma quarter_grid : exists g, mk_grid (5 / 2) 6371200 (7292 / 100000000) None = Ok g /\ g_nlat g = 73%nat /\ g_nlon g = 144%nat /\ g_ntrunc g = 72%nat /\ g_omega g = 7292 / 100000000.
Proof.
  eexists. split.
  - unfold mk_grid. destruct (Req_EM_T (5 / 2) 0); [lra|]. unfold nlon_of, nlat_of. replace (360 / (5 / 2)) with (IZR 144) by field. replace (180 / (5 / 2)) with (IZR 72) by field.
    rewrite (py_int_nonneg (IZR 144)) by lra. rewrite (py_int_nonneg (IZR 72)) by lra. rewrite !Int_part_IZR. cbn [Z.ltb Z.leb Z.compare orb Z.add Z.sub].
    replace (Rltb 0 6371200) with true by (symmetry; apply Rltb_true; lra). reflexivity.
  - repeat split.
Qed.
Example C133_example : exists g, mk_grid (5 / 2) 6371200 (7292 / 100000000) None = Ok g
  /\ exact_on (harmonics 36) g /\ calculus_on (harmonics 36) g /\ resolved_divergence (harmonics 36) g
  /\ (forall n, (1 <= n <= 24)%nat -> products_on (harmonics 24) g n) /\ rotates (harmonics 36) g
  /\ g_nlon g = (2 * g_ntrunc g)%nat /\ (1 <= g_ntrunc g)%nat.
Proof.
  destruct quarter_grid as [g [Hg [A [B [C _]]]]]. exists g. split; [exact Hg|].
  destruct (C133_transforms _ _ _ _ _ Hg 36) as [H1 [H2 H3]]; [lia|lia|]. repeat (split; [assumption|]).
  split; [intros n Hn; apply (C133_products _ _ _ _ _ Hg); lia|]. split; [apply (C133_symmetries _ _ _ _ _ Hg)|]. lia.
Qed.
(** Example: the harmonic of order 0 and degree 1 is 2 sin(phi), that of order 1 and degree 1 is
    2 cos(phi) exp(i lambda) *)
Example C133_low : forall phi lam, sum_at h_value [RtoC 0; RtoC 1; RtoC 0] phi lam = 2 * sin phi /\ sum_at h_value [RtoC 0; RtoC 0; RtoC 1] phi lam = 2 * cos phi * cos lam.
Proof.
  intros phi lam. rewrite !(sum_at_eq 1) by reflexivity. change (nspec 1) with 3%nat. unfold tab, coef, swing, h_value, order, degree. cbn -[INR cos sin pow rodrigues].
  rewrite rodrigues_10, rodrigues_11. change (INR 0) with 0. change (INR 1) with 1. rewrite ?Rmult_0_l, ?cos_0, ?sin_0, ?Rmult_1_l. cbn [pow]. split; ring.
Qed.
(** Example: a wave of order 4 and degree 5 on that grid (a Rossby-Haurwitz wave in a flow at
    rest) moves with frequency 4*2*omega/30; with steps of an hour it dies out *)
Example C133_wave_example : exists g k, mk_grid (5 / 2) 6371200 (7292 / 100000000) None = Ok g /\ (k < nspec (g_ntrunc g))%nat
  /\ order (g_ntrunc g) k = 4%nat /\ degree (g_ntrunc g) k = 5%nat
  /\ let z := tab (nspec (g_ntrunc g)) (fun l => if Nat.eqb l k then RtoC 1 else RtoC 0) in of_degree (g_ntrunc g) 5 z
  /\ let init := mkState g (@VNum numR 0) (sadd (rotating (harmonics 24) g 0) z) in
  wave_dies (harmonics 24) g (mkModel (K := numR) None 1 0 None) init (@VNum numR 3600) 0 k.
Proof.
  destruct quarter_grid as [g [Hg [A [B [C O]]]]]. exists g, 287%nat. split; [exact Hg|]. rewrite C. assert (K : (287 < nspec 72)%nat) by (apply Nat.ltb_lt; vm_compute; reflexivity).
  assert (OK : order 72 287 = 4%nat) by (vm_compute; reflexivity). assert (DK : degree 72 287 = 5%nat) by (vm_compute; reflexivity).
  repeat (split; [assumption|]). intros z. assert (Z : of_degree 72 5 z).
  { split; [apply tab_length|]. intros l Hl N. unfold coef, z. rewrite tab_nth by exact Hl. destruct (Nat.eqb_spec l 287) as [->|]; [contradiction|reflexivity]. }
  split; [exact Z|]. intros init.
  apply (C133_waves (5 / 2) 6371200 (7292 / 100000000) None g Hg ltac:(lia) 24 5 ltac:(lia) ltac:(lia) ltac:(lia) ltac:(lia) ltac:(lia) (mkModel (K := numR) None 1 0 None) 0 z 0 1 ltac:(lra) eq_refl eq_refl); rewrite ?C; try assumption.
  - intros l Hl _. unfold coef, z. rewrite tab_nth by exact Hl. now destruct (Nat.eqb l 287).
  - lra.
  - rewrite OK. unfold frequency. cbn [INR]. lra.
  - rewrite OK. unfold frequency. cbn [INR]. lra.
Qed.
