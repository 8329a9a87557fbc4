(** Constructors of the mountains (C141) and sums of reliefs (C142). *)
From Coq Require Export String.
From Verif Require Import Base Model_Grid Model_Time Model_Spectral Model_State Model_Run Model_RHS Model_Mountain.
From Verif Require Import Spec_Grid Spec_Spectral Spec_State Spec_Instance Spec_Run Spec_RHS Spec_Mountain.
From Verif Require Import Proofs_Base Proofs_Region Proofs_Grid Proofs_Spectral Proofs_Instance Proofs_State Proofs_Run Proofs_RHS Proofs_Orog Proofs_Mountain.
From Coq Require Import List Lia Lra.
Import ListNotations.
Open Scope R_scope.

(** ** C141 *)
Theorem C141_gaussian_accepts : forall k, NoDup (map fst k) -> (exists m, gaussian_mountain k = Ok m) <-> gauss_ok k.
Proof. exact gaussian_iff. Qed.
Print Assumptions C141_gaussian_accepts.
Theorem C141_sine_accepts : forall k, NoDup (map fst k) -> (exists m, zonal_sine_mountains k = Ok m) <-> sine_ok k.
Proof. exact sine_iff. Qed.
Print Assumptions C141_sine_accepts.
(** names first, then wind, center and stdev *)
Theorem C141_gaussian_errors : forall k, NoDup (map fst k) ->
  (~ names_ok gauss_names k -> gaussian_mountain k = Err TypeError)
  /\ (names_ok gauss_names k -> forall v, In ("wind"%string, v) k -> ~ wind_ok v ->
        (iterable v -> gaussian_mountain k = Err ValueError) /\ (~ iterable v -> gaussian_mountain k = Err TypeError))
  /\ (names_ok gauss_names k -> (forall v, In ("wind"%string, v) k -> wind_ok v) -> forall v, In ("center"%string, v) k -> ~ two v ->
        (iterable v -> gaussian_mountain k = Err ValueError) /\ (~ iterable v -> gaussian_mountain k = Err TypeError))
  /\ (names_ok gauss_names k -> (forall v, In ("wind"%string, v) k -> wind_ok v) -> (forall v, In ("center"%string, v) k -> two v) ->
        forall v, In ("stdev"%string, v) k -> ~ width_ok v ->
        (width_short v -> gaussian_mountain k = Err IndexError) /\ (~ width_short v -> gaussian_mountain k = Err TypeError)).
Proof. exact gaussian_error. Qed.
Print Assumptions C141_gaussian_errors.
Theorem C141_sine_errors : forall k, NoDup (map fst k) ->
  (~ names_ok sine_names k -> zonal_sine_mountains k = Err TypeError)
  /\ (names_ok sine_names k -> forall v, In ("wind"%string, v) k -> ~ wind_ok v ->
        (iterable v -> zonal_sine_mountains k = Err ValueError) /\ (~ iterable v -> zonal_sine_mountains k = Err TypeError))
  /\ (names_ok sine_names k -> (forall v, In ("wind"%string, v) k -> wind_ok v) -> forall v, In ("stdev_lat"%string, v) k ->
        (forall x, v <> PvNum x) -> zonal_sine_mountains k = Err TypeError).
Proof. exact sine_error. Qed.
Print Assumptions C141_sine_errors.

(** the mountain with the given or default parameters, and its forcing; a single
    standard deviation counts for both directions, more than two are ignored *)
Theorem C141_gaussian : forall k kind fact hs fcv fc h clon clat sx sy, NoDup (map fst k) -> names_ok gauss_names k ->
  argument k "wind" wind_default (PvSeq [PvStr kind; PvNum fact]) -> In kind wind_names ->
  argument k "scale_height" (PvNum 10000) (PvNum hs) -> argument k "fcor_ref" PvNone fcv -> fcor_of fcv fc ->
  argument k "height" (PvNum 1500) (PvNum h) -> argument k "center" center_default (PvSeq [PvNum clon; PvNum clat]) ->
  (exists l, argument k "stdev" stdev_default (PvSeq (PvNum sx :: PvNum sy :: l))) \/ (argument k "stdev" stdev_default (PvNum sx) /\ sy = sx) ->
  sx <> 0 -> sy <> 0 ->
  exists m o, gaussian_mountain k = Ok m /\ mk_orog (RGauss h clon clat sx sy) hs (kind, fact) fc = Ok o
  /\ (forall g, exists z, mountain_orography m g = Some z /\ shaped (g_nlat g) (g_nlon g) z
        /\ forall i j, (i < g_nlat g)%nat -> (j < g_nlon g)%nat -> mget z i j
           = h * exp (- ((nth j (g_lon g) 0 - clon) ^ 2 / (2 * sx ^ 2))) * exp (- ((nth i (g_lat g) 0 - clat) ^ 2 / (2 * sy ^ 2))))
  /\ forall K T (s : state K), exists F, mountain_call T m s = Some F /\ orog_call T o s = Ok (FMat F).
Proof.
  intros k kind fact hs fcv fc h clon clat sx sy HD HN AW HK AH AF HF A1 A2 A3 NX NY.
  exists (MGauss (mkBase (PvNum hs) fcv (kind_of kind) (PvNum fact)) (PvNum h) (PvNum clon) (PvNum clat) (sx ^ 2) (sy ^ 2)),
         (mkOrog (RGauss h clon clat sx sy) hs (kind_of kind) fact fc).
  split; [eapply gaussian_value; eauto|]. split; [now apply kind_of_mk|].
  assert (EO : forall g, exists z, mountain_orography (MGauss (mkBase (PvNum hs) fcv (kind_of kind) (PvNum fact)) (PvNum h) (PvNum clon) (PvNum clat) (sx ^ 2) (sy ^ 2)) g = Some z
     /\ orography (RGauss h clon clat sx sy) g = Ok z).
  { intros g. eexists. split; reflexivity. }
  split.
  - intros g. destruct (EO g) as [z [E1 E2]]. exists z. split; [exact E1|]. destruct (gauss_mountain_get g h clon clat sx sy z E2) as [S V].
    split; [exact S|]. intros i j Hi Hj. rewrite V by auto. unfold gauss. do 2 f_equal.
    + f_equal. unfold Rdiv. rewrite Rinv_mult. lra.
    + f_equal. unfold Rdiv. rewrite Rinv_mult. lra.
  - intros K T s. apply mountain_call_eq with (fcv := fcv); auto.
Qed.
Print Assumptions C141_gaussian.
Theorem C141_sine : forall k kind fact hs fcv fc h clat sy w, NoDup (map fst k) -> names_ok sine_names k ->
  argument k "wind" wind_default (PvSeq [PvStr kind; PvNum fact]) -> In kind wind_names ->
  argument k "scale_height" (PvNum 10000) (PvNum hs) -> argument k "fcor_ref" PvNone fcv -> fcor_of fcv fc ->
  argument k "height" (PvNum 1500) (PvNum h) -> argument k "center_lat" (PvNum 45) (PvNum clat) ->
  argument k "stdev_lat" (PvNum 10) (PvNum sy) -> argument k "wavenumber" (PvNum 4) (PvNum w) -> sy <> 0 ->
  exists m o, zonal_sine_mountains k = Ok m /\ mk_orog (RSine h clat sy w) hs (kind, fact) fc = Ok o
  /\ (forall g, exists z, mountain_orography m g = Some z /\ shaped (g_nlat g) (g_nlon g) z
        /\ forall i j, (i < g_nlat g)%nat -> (j < g_nlon g)%nat -> mget z i j
           = h * cos (w * (nth j (g_lon g) 0 / 180 * PI) / 2) ^ 2 * exp (- ((nth i (g_lat g) 0 - clat) ^ 2 / (2 * sy ^ 2))))
  /\ forall K T (s : state K), exists F, mountain_call T m s = Some F /\ orog_call T o s = Ok (FMat F).
Proof.
  intros k kind fact hs fcv fc h clat sy w HD HN AW HK AH AF HF A1 A2 A3 A4 NY.
  exists (MSine (mkBase (PvNum hs) fcv (kind_of kind) (PvNum fact)) (PvNum h) (PvNum clat) (sy ^ 2) (PvNum w)),
         (mkOrog (RSine h clat sy w) hs (kind_of kind) fact fc).
  split; [eapply sine_value; eauto|]. split; [now apply kind_of_mk|].
  assert (EO : forall g, exists z, mountain_orography (MSine (mkBase (PvNum hs) fcv (kind_of kind) (PvNum fact)) (PvNum h) (PvNum clat) (sy ^ 2) (PvNum w)) g = Some z
     /\ orography (RSine h clat sy w) g = Ok z).
  { intros g. eexists. split; reflexivity. }
  split.
  - intros g. destruct (EO g) as [z [E1 E2]]. exists z. split; [exact E1|]. destruct (sine_mountain_get g h clat sy w z E2) as [S V].
    split; [exact S|]. intros i j Hi Hj. rewrite V by auto. unfold gauss.
    match goal with |- _ * (1 / 2 * (1 + cos ?a)) * _ = _ => replace a with (2 * (w * (nth j (g_lon g) 0 / 180 * PI) / 2)) at 1 by
       (try (rewrite lam_nth by auto); rewrite ?lon_nth by auto; unfold deg2rad in *; lra) end.
    rewrite cos_2a_cos. f_equal; [|f_equal; unfold Rdiv; rewrite Rinv_mult; lra]. ring_simplify. field.
  - intros K T s. apply mountain_call_eq with (fcv := fcv); auto.
Qed.
Print Assumptions C141_sine.

Definition kw1 : kwds := [("stdev", PvNum 5); ("wind", PvSeq [PvStr "zon"; PvNum (1 / 2)]); ("fcor_ref", PvNum 2)]%string.
Lemma kw1_nodup : NoDup (map fst kw1).
Proof. repeat constructor; cbn; intuition discriminate. Qed.
Example C141_nonvacuous : NoDup (map fst kw1) /\ gauss_ok kw1
  /\ argument kw1 "wind" wind_default (PvSeq [PvStr "zon"; PvNum (1 / 2)]) /\ In "zon"%string wind_names
  /\ argument kw1 "scale_height" (PvNum 10000) (PvNum 10000) /\ argument kw1 "fcor_ref" PvNone (PvNum 2) /\ fcor_of (PvNum 2) (Some 2)
  /\ argument kw1 "height" (PvNum 1500) (PvNum 1500) /\ argument kw1 "center" center_default (PvSeq [PvNum 30; PvNum 45])
  /\ argument kw1 "stdev" stdev_default (PvNum 5)
  /\ (exists m, gaussian_mountain kw1 = Ok m /\ gaussian_mountain [("stdev", PvSeq [PvNum (-5); PvNum 5; PvNone]); ("fcor_ref", PvNum 2); ("wind", PvSeq [PvStr "zon"; PvNum (1 / 2)])]%string
        = Ok m)
  /\ sine_ok [("wavenumber", PvNum 2)]%string /\ argument [("wavenumber", PvNum 2)]%string "wavenumber" (PvNum 4) (PvNum 2)
  /\ argument [("wavenumber", PvNum 2)]%string "stdev_lat" (PvNum 10) (PvNum 10).
Proof.
  unfold argument. repeat match goal with |- _ /\ _ => split end; try exact kw1_nodup; try (left; cbn; now auto);
    try (right; split; [cbn; intuition discriminate|reflexivity]); try (cbn; now auto).
  - unfold gauss_ok. repeat match goal with |- _ /\ _ => split end.
    + intros n v [E|[E|[E|[]]]]; injection E as <- <-; cbn; auto 10.
    + intros v [E|[E|[E|[]]]]; try discriminate E. injection E as <-. exists "zon"%string, (PvNum (1 / 2)). cbn. auto.
    + intros v [E|[E|[E|[]]]]; discriminate E.
    + intros v [E|[E|[E|[]]]]; try discriminate E. injection E as <-. left. eauto.
  - right. exists 2. auto.
  - eexists. split; [reflexivity|]. cbn. do 2 f_equal; ring.
  - unfold sine_ok. repeat match goal with |- _ /\ _ => split end.
    + intros n v [E|[]]; injection E as <- <-; cbn; auto 10.
    + intros v [E|[]]; discriminate E.
    + intros v [E|[]]; discriminate E.
Qed.
Example C141_errors : gaussian_mountain [("hight", PvNum 1)]%string = Err TypeError
  /\ gaussian_mountain [("lon", PvNone)]%string = Err TypeError
  /\ gaussian_mountain [("stdev", PvSeq [PvNum 1]); ("wind", PvSeq [PvStr "foo"; PvNum 1])]%string = Err ValueError
  /\ gaussian_mountain [("center", PvNum 1); ("stdev", PvSeq [])]%string = Err TypeError
  /\ gaussian_mountain [("center", PvSeq [PvNum 1]); ("stdev", PvSeq [])]%string = Err ValueError
  /\ gaussian_mountain [("stdev", PvSeq [PvNum 1])]%string = Err IndexError
  /\ gaussian_mountain [("stdev", PvNone)]%string = Err TypeError
  /\ zonal_sine_mountains [("center", PvNum 1)]%string = Err TypeError
  /\ zonal_sine_mountains [("stdev_lat", PvSeq [PvNum 1; PvNum 2])]%string = Err TypeError.
Proof. repeat split. Qed.

(** ** C142 *)
Theorem C142_interpolation : forall lon lat f h p a b c g mf mh, shaped (List.length lat) (List.length lon) p ->
  combination (List.length lat) (List.length lon) a b c f h p ->
  orography (RField lon lat f) g = Ok mf -> orography (RField lon lat h) g = Ok mh ->
  exists mp, orography (RField lon lat p) g = Ok mp /\ combination (g_nlat g) (g_nlon g) a b c mf mh mp.
Proof.
  intros lon lat f h p a b c g mf mh SP HC E1 E2. destruct (orography_lin a b c lon lat f h p g mf mh SP HC E1 E2) as [mp [E [_ V]]]. exists mp. auto.
Qed.
Print Assumptions C142_interpolation.
(** whatever classes the three reliefs have *)
Theorem C142_superposition : forall K T g, exact_on T g -> forall o r1 r2 r a b c h1 h2 h (s : state K), s_grid s = g -> o_scale_height o <> 0 ->
  orography r1 g = Ok h1 -> orography r2 g = Ok h2 -> orography r g = Ok h -> combination (g_nlat g) (g_nlon g) a b c h1 h2 h ->
  exists F1 F2 F, call T (POrog (with_relief o r1)) s = Ok (FMat F1) /\ call T (POrog (with_relief o r2)) s = Ok (FMat F2)
  /\ call T (POrog (with_relief o r)) s = Ok (FMat F) /\ shaped (g_nlat g) (g_nlon g) F
  /\ combination (g_nlat g) (g_nlon g) a b 0 F1 F2 F.
Proof.
  intros K T g H o r1 r2 r a b c h1 h2 h s E HH E1 E2 E3 HC.
  destruct (call_lin T g H o r1 r2 r a b c h1 h2 h s E HH E1 E2 E3 HC) as [F1 [F2 [C1 [C2 [S1 [S2 C3]]]]]].
  exists F1, F2, (madd (mscale a F1) (mscale b F2)). do 3 (split; [assumption|]). split; [auto using shaped_madd, shaped_mscale|].
  intros i j Hi Hj. rewrite (mget_madd (g_nlat g) (g_nlon g)), !(mget_mscale (g_nlat g) (g_nlon g)) by auto using shaped_mscale. ring.
Qed.
Print Assumptions C142_superposition.
(** the sum of two forcing terms is the forcing of the added reliefs *)
Theorem C142_sum_of_terms : forall K T g, exact_on T g -> forall o r1 r2 r c h1 h2 h (s : state K), s_grid s = g -> o_scale_height o <> 0 ->
  orography r1 g = Ok h1 -> orography r2 g = Ok h2 -> orography r g = Ok h -> combination (g_nlat g) (g_nlon g) 1 1 c h1 h2 h ->
  exists t, op_add (POrog (with_relief o r1)) (POrog (with_relief o r2)) = Ok t /\ call T t s = call T (POrog (with_relief o r)) s.
Proof.
  intros K T g H o r1 r2 r c h1 h2 h s E HH E1 E2 E3 HC. eexists. split; [reflexivity|].
  destruct (call_lin T g H o r1 r2 r 1 1 c h1 h2 h s E HH E1 E2 E3 HC) as [F1 [F2 [C1 [C2 [S1 [S2 C3]]]]]].
  rewrite C3. cbn [call] in *. rewrite C1, C2. cbn [bind fbin]. rewrite (same_shape_true _ _ _ _ S1 S2).
  do 2 f_equal. apply (mat_ext (g_nlat g) (g_nlon g)); [now apply shaped_map2|auto using shaped_madd, shaped_mscale|].
  intros i j Hi Hj. rewrite (mget_map2 (g_nlat g) (g_nlon g)) by auto.
  rewrite (mget_madd (g_nlat g) (g_nlon g)), !(mget_mscale (g_nlat g) (g_nlon g)) by auto using shaped_mscale. ring.
Qed.
Print Assumptions C142_sum_of_terms.
(** raising the whole relief changes nothing *)
Theorem C142_offset : forall K T g, exact_on T g -> forall o lon lat f p c h (s : state K), s_grid s = g -> o_scale_height o <> 0 ->
  orography (RField lon lat f) g = Ok h -> shaped (List.length lat) (List.length lon) p ->
  combination (List.length lat) (List.length lon) 1 0 c f f p ->
  call T (POrog (with_relief o (RField lon lat p))) s = call T (POrog (with_relief o (RField lon lat f))) s.
Proof.
  intros K T g H o lon lat f p c h s E HH E1 SP HC.
  destruct (orography_lin 1 0 c lon lat f f p g h h SP HC E1 E1) as [mp [E3 [_ V]]].
  destruct (call_lin T g H o _ _ _ 1 0 c h h mp s E HH E1 E1 E3 V) as [F1 [F2 [C1 [C2 [S1 [S2 C3]]]]]].
  rewrite C3, C1. rewrite C2 in C1. injection C1 as ->. do 2 f_equal. apply (mat_ext (g_nlat g) (g_nlon g)); auto using shaped_madd, shaped_mscale.
  intros i j Hi Hj. rewrite (mget_madd (g_nlat g) (g_nlon g)), !(mget_mscale (g_nlat g) (g_nlon g)) by auto using shaped_mscale. ring.
Qed.
Print Assumptions C142_offset.
(** heights count relative to the scale height *)
Theorem C142_scale : forall K T g, exact_on T g -> forall o r r' a h h' (s : state K), s_grid s = g -> o_scale_height o <> 0 -> a <> 0 ->
  orography r g = Ok h -> orography r' g = Ok h' -> combination (g_nlat g) (g_nlon g) a 0 0 h h h' ->
  call T (POrog (with_scale o r' (a * o_scale_height o))) s = call T (POrog (with_scale o r (o_scale_height o))) s.
Proof.
  intros K T g H o r r' a h h' s E HH HA E1 E2 HC.
  assert (N : a * o_scale_height o <> 0) by (now apply Rmult_integral_contrapositive).
  destruct (call_lin T g H (with_scale o r (a * o_scale_height o)) r r r' a 0 0 h h h' s E N E1 E1 E2 HC) as [F1 [F2 [C1 [C2 [S1 [S2 C3]]]]]].
  unfold with_relief in *. cbn [with_scale o_relief o_scale_height o_wind o_fact o_fcor_ref] in *. unfold with_scale. rewrite C3.
  destruct (orog_call_get T g H (mkOrog r (a * o_scale_height o) (o_wind o) (o_fact o) (o_fcor_ref o)) s h E N E1) as [G1 [D1 [T1 V1]]].
  destruct (orog_call_get T g H (mkOrog r (o_scale_height o) (o_wind o) (o_fact o) (o_fcor_ref o)) s h E HH E1) as [G2 [D2 [T2 V2]]].
  cbn [call] in *. rewrite D2. rewrite D1 in C1. injection C1 as <-. do 2 f_equal.
  apply (mat_ext (g_nlat g) (g_nlon g)); auto using shaped_madd, shaped_mscale. intros i j Hi Hj.
  rewrite (mget_madd (g_nlat g) (g_nlon g)), !(mget_mscale (g_nlat g) (g_nlon g)) by auto using shaped_mscale. rewrite V1, V2 by auto.
  unfold forcing_f, forcing_u, forcing_v. cbn [o_relief o_scale_height o_wind o_fact o_fcor_ref].
  match goal with |- _ * (_ * ?x) + _ = _ * ?y => change y with x; generalize x; intros z end. field. auto.
Qed.
Print Assumptions C142_scale.
Definition heights : mat := mat_of 3 4 (fun i j => INR (i + 2 * j)).
Example C142_nonvacuous : exact_on d1_family (d1_grid 1 1)
  /\ (exists h1 h2 h, orography (RGauss 1000 30 45 5 10) (d1_grid 1 1) = Ok h1 /\ orography (RGauss 500 30 45 5 10) (d1_grid 1 1) = Ok h2
      /\ orography (RGauss 1500 30 45 5 10) (d1_grid 1 1) = Ok h /\ combination 3 4 1 1 0 h1 h2 h /\ combination 3 4 2 0 0 h2 h2 h1)
  /\ (exists h, orography (RField [0; 120; 240; 360] [90; 10; -50] heights) (d1_grid 1 1) = Ok h)
  /\ shaped 3 4 (mmap (fun x => x + 7) heights) /\ combination 3 4 1 0 7 heights heights (mmap (fun x => x + 7) heights).
Proof.
  assert (HG : forall a b c g x y z, orography (RGauss a 30 45 5 10) g = Ok x -> orography (RGauss b 30 45 5 10) g = Ok y ->
      orography (RGauss c 30 45 5 10) g = Ok z -> forall p q, c = p * a + q * b -> combination (g_nlat g) (g_nlon g) p q 0 x y z).
  { intros a b c g x y z E1 E2 E3 p q E i j Hi Hj. destruct (gauss_mountain_get _ _ _ _ _ _ _ E1) as [_ V1].
    destruct (gauss_mountain_get _ _ _ _ _ _ _ E2) as [_ V2]. destruct (gauss_mountain_get _ _ _ _ _ _ _ E3) as [_ V3].
    rewrite V1, V2, V3 by auto. rewrite E. ring. }
  split; [apply d1_exact; lra|]. split.
  { eexists _, _, _. do 3 (split; [reflexivity|]). split.
    - eapply (HG 1000 500 1500 (d1_grid 1 1)); [reflexivity..|lra].
    - eapply (HG 500 500 1000 (d1_grid 1 1)); [reflexivity..|lra]. }
  split; [apply interp_orography_ok; [cbn; lia|cbn; lia|apply (shaped_mat_of 3 4)]|].
  split; [apply shaped_mmap, shaped_mat_of|]. intros i j Hi Hj. rewrite (mget_mmap 3 4) by (auto; apply shaped_mat_of). ring.
Qed.
