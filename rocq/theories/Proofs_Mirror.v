(** Contours of the reflected field. *)
From Coq Require Export String.
From Verif Require Import Base Model_Grid Model_Quad Model_Falwa Spec_Grid Spec_Quad Spec_Interp Spec_Sym Spec_Symmetry Spec_Mirror Proofs_Base Proofs_Grid Proofs_Trig
  Proofs_Region Proofs_Quad Proofs_Zonalize Proofs_Interp Proofs_Box Proofs_Falwa Proofs_Profile Proofs_Sym Proofs_Symmetry Proofs_SymForcing.
From Verif Require Import Model_Region.
From Coq Require Import List Lia Lra.
Import ListNotations.
Open Scope R_scope.

Lemma opposite_length l : length (opposite l) = length l.
Proof. unfold opposite. now rewrite rev_length, map_length. Qed.
Lemma opposite_nth l k : (k < length l)%nat -> nth k (opposite l) 0 = - nth (length l - 1 - k) l 0.
Proof.
  intros H. unfold opposite. rewrite rev_nth by now rewrite map_length. rewrite map_length, (nth_map_lt _ _ _ 0) by lia. do 2 f_equal. lia.
Qed.
Lemma opposite_in l x : In x (opposite l) <-> In (- x) l.
Proof.
  unfold opposite. rewrite <- in_rev, in_map_iff. split.
  - intros [t [<- H]]. now rewrite Ropp_involutive.
  - intros H. exists (- x). now rewrite Ropp_involutive.
Qed.
Lemma opposite_nodup l : NoDup l -> NoDup (opposite l).
Proof.
  intros H. unfold opposite. apply NoDup_rev. apply FinFun.Injective_map_NoDup; [|assumption]. intros a b E. lra.
Qed.

(** ** quadrature *)
Lemma seg_mirror rs xl yl zl xr yr zr : xl <> xr -> seg_trapz rs (- xr, (yr, zr)) (- xl, (yl, zl)) = seg_trapz rs (xl, (yl, zl)) (xr, (yr, zr)).
Proof.
  intros H. unfold seg_trapz. cbn [fst snd].
  destruct (Rleb 0 zl) eqn:El, (Rleb 0 zr) eqn:Er; cbn [negb andb orb]; rewrite ?Rleb_true, ?Rleb_false in *; rewrite ?cos_neg, ?sin_neg.
  - field. lra.
  - replace (- xr - zr / (zl - zr) * (- xl - - xr)) with (- (xr - zr / (zr - zl) * (xr - xl))) by (field; lra).
    set (c := xr - zr / (zr - zl) * (xr - xl)). rewrite cos_neg, sin_neg. field. lra.
  - replace (- xl - zl / (zl - zr) * (- xl - - xr)) with (- (xl - zl / (zr - zl) * (xr - xl))) by (field; lra).
    set (c := xl - zl / (zr - zl) * (xr - xl)). rewrite cos_neg, sin_neg. field. lra.
  - reflexivity.
Qed.

Lemma seg_split rs xl yl zl xr yr zr : xl <> xr -> (zl = 0 -> zr = 0 -> yl = 0 /\ yr = 0) ->
  seg_trapz rs (xl, (yl, zl)) (xr, (yr, zr)) + seg_trapz rs (xl, (yl, - zl)) (xr, (yr, - zr)) = seg_trapz rs (xl, (yl, 1)) (xr, (yr, 1)).
Proof.
  intros H Hz. unfold seg_trapz. cbn [fst snd]. replace (Rleb 0 1) with true by (symmetry; apply Rleb_true; lra).
  destruct (Rleb 0 zl) eqn:El, (Rleb 0 zr) eqn:Er, (Rleb 0 (- zl)) eqn:El', (Rleb 0 (- zr)) eqn:Er'; cbn [negb andb orb];
    rewrite ?Rleb_true, ?Rleb_false in *; try lra.
  - destruct Hz as [-> ->]; [lra|lra|]. field. lra.
  - replace zl with 0 by lra. replace (xr - - zr / (- zr - - 0) * (xr - xl)) with xl by (field; lra). field. lra.
  - replace zr with 0 by lra. replace (xl - - zl / (- 0 - - zl) * (xr - xl)) with xr by (field; lra). field. lra.
  - replace zl with 0 by lra. replace (xr - zr / (zr - 0) * (xr - xl)) with xl by (field; lra). field. lra.
  - replace (xl - - zl / (- zr - - zl) * (xr - xl)) with (xr - zr / (zr - zl) * (xr - xl)) by (field; lra).
    set (c := xr - zr / (zr - zl) * (xr - xl)). ring.
  - replace zr with 0 by lra. replace (xl - zl / (0 - zl) * (xr - xl)) with xr by (field; lra). field. lra.
  - replace (xr - - zr / (- zr - - zl) * (xr - xl)) with (xl - zl / (zr - zl) * (xr - xl)) by (field; lra).
    set (c := xl - zl / (zr - zl) * (xr - xl)). ring.
Qed.

Lemma extremes_exist nr nc f : (0 < nr)%nat -> (0 < nc)%nat -> shaped nr nc f -> exists lo hi, extremes nr nc f lo hi.
Proof.
  intros N0 N S. assert (NE : concat f <> []).
  { intros E. assert (I : In (mget f 0 0) (concat f)) by (apply (in_concat_mget nr nc f _ S); exists 0%nat, 0%nat; auto). now rewrite E in I. }
  exists (mmin f), (mmax f). unfold mmin, mmax. split; [|split].
  - intros i j Hi Hj. assert (I : In (mget f i j) (concat f)) by (apply (in_concat_mget nr nc f _ S); exists i, j; auto). split; [now apply vmin_le|now apply vmax_ge].
  - destruct (proj1 (in_concat_mget nr nc f _ S) (vmin_in _ NE)) as [i [j [Hi [Hj E]]]]. exists i, j. auto.
  - destruct (proj1 (in_concat_mget nr nc f _ S) (vmax_in _ NE)) as [i [j [Hi [Hj E]]]]. exists i, j. auto.
Qed.

(** ** interpolation *)
Lemma greatest (P : R -> bool) l : (exists t, In t l /\ P t = true) -> exists m, In m l /\ P m = true /\ forall t, In t l -> P t = true -> t <= m.
Proof.
  induction l as [|a l IH]; intros [t [Ht Pt]]; [easy|].
  destruct (P a) eqn:Pa.
  - destruct (existsb P l) eqn:X.
    + apply existsb_exists in X. destruct (IH X) as [m [Hm [Pm B]]]. destruct (Rle_dec m a).
      * exists a. split; [now left|]. split; [assumption|]. intros u [<-|Hu] Pu; [lra|]. specialize (B u Hu Pu). lra.
      * exists m. split; [now right|]. split; [assumption|]. intros u [<-|Hu] Pu; [lra|]. now apply B.
    + exists a. split; [now left|]. split; [assumption|]. intros u [<-|Hu] Pu; [lra|]. exfalso.
      assert (existsb P l = true) by (apply existsb_exists; exists u; auto). congruence.
  - destruct Ht as [<-|Ht]; [congruence|]. destruct (IH (ex_intro _ t (conj Ht Pt))) as [m [Hm [Pm B]]].
    exists m. split; [now right|]. split; [assumption|]. intros u [<-|Hu] Pu; [congruence|]. now apply B.
Qed.
Lemma neighbours l x : In (-90) l -> In 90 l -> -90 <= x <= 90 ->
  exists a b, In a l /\ In b l /\ a <= x <= b /\ a < b /\ forall c, In c l -> ~ (a < c < b).
Proof.
  intros Hs Hn Hx.
  destruct (greatest (fun t => Rleb t x && Rltb t 90) l) as [a [Ha [Pa Ba]]].
  { exists (-90). split; [assumption|]. apply andb_true_intro. split; [apply Rleb_true|apply Rltb_true]; lra. }
  apply andb_prop in Pa. destruct Pa as [Pa1 Pa2]. apply Rleb_true in Pa1. apply Rltb_true in Pa2.
  destruct (greatest (fun t => Rltb t (- a)) (map Ropp l)) as [b [Hb [Pb Bb]]].
  { exists (-90). split; [apply in_map_iff; exists 90; auto|]. apply Rltb_true. lra. }
  apply Rltb_true in Pb. apply in_map_iff in Hb. destruct Hb as [b' [<- Hb]].
  assert (Nb : forall c, In c l -> a < c -> b' <= c).
  { intros c Hc L. specialize (Bb (- c) (in_map Ropp l c Hc)). rewrite Rltb_true in Bb. specialize (Bb ltac:(lra)). lra. }
  exists a, b'. split; [assumption|]. split; [assumption|]. split; [split; [assumption|]|split; [lra|]].
  - destruct (Rle_dec x b'); [assumption|]. exfalso. destruct (Rlt_dec b' 90) as [L|L]; [|lra].
    assert (b' <= a); [|lra]. apply Ba; [assumption|]. apply andb_true_intro. split; [apply Rleb_true|apply Rltb_true]; lra.
  - intros c Hc [L1 L2]. specialize (Nb c Hc L1). lra.
Qed.
Lemma on_line_unique lat field pole x w1 w2 : length field = length lat -> -90 <= x <= 90 ->
  on_line lat field pole x w1 -> on_line lat field pole x w2 -> w1 = w2.
Proof.
  intros Hl Hx H1 H2. destruct (neighbours (90 :: -90 :: lat) x) as [a [b [Ha [Hb [Hab [L N]]]]]]; [cbn; auto..|assumption|].
  assert (Nd : forall t, In t (90 :: -90 :: lat) -> exists p, is_node lat field pole p /\ fst p = t).
  { intros t [<-|[<-|Ht]].
    - exists (90, fst pole). split; [now left|reflexivity].
    - exists (-90, snd pole). split; [now right; left|reflexivity].
    - destruct (In_nth _ _ 0 Ht) as [i [Hi E]]. exists (nth i lat 0, nth i field 0). split; [right; right; now exists i|assumption]. }
  destruct (Nd a Ha) as [p [Np Ep]]. destruct (Nd b Hb) as [q [Nq Eq]].
  assert (No : forall c, is_node lat field pole c -> ~ (fst p < fst c < fst q)).
  { intros c Hc. rewrite Ep, Eq. apply N. destruct Hc as [->|[->|[i [Hi ->]]]]; cbn; [auto..|]. right; right. now apply nth_In. }
  assert (Hpq : fst p < fst q) by lra.
  pose proof (H1 p q Np Nq ltac:(lra) Hpq No) as E1. pose proof (H2 p q Np Nq ltac:(lra) Hpq No) as E2.
  apply Rmult_eq_reg_r with (fst q - fst p); lra.
Qed.
Definition swap (s : R) (pole : R * R) : R * R := (s * snd pole, s * fst pole).
Definition flipped (s : R) (l : vec) : vec := rev (map (Rmult s) l).
Lemma flipped_length s l : length (flipped s l) = length l.
Proof. unfold flipped. now rewrite rev_length, map_length. Qed.
Lemma flipped_nth s l k : (k < length l)%nat -> nth k (flipped s l) 0 = s * nth (length l - 1 - k) l 0.
Proof.
  intros H. unfold flipped. rewrite rev_nth by now rewrite map_length. rewrite map_length, (nth_map_lt _ _ _ 0) by lia. do 2 f_equal. lia.
Qed.
Lemma node_opp s lat field pole p : s * s = 1 -> length field = length lat -> is_node lat field pole p ->
  is_node (opposite lat) (flipped s field) (swap s pole) (- fst p, s * snd p).
Proof.
  intros Hs Hl [->|[->|[i [Hi ->]]]]; cbn [fst snd].
  - right; left. reflexivity.
  - left. unfold swap. cbn [fst]. f_equal. lra.
  - right; right. exists (length lat - 1 - i)%nat. rewrite opposite_length. split; [lia|].
    rewrite opposite_nth, flipped_nth by lia. replace (length lat - 1 - (length lat - 1 - i))%nat with i by lia.
    replace (length field - 1 - (length lat - 1 - i))%nat with i by lia. reflexivity.
Qed.
Lemma on_line_opp s lat field pole x w : s * s = 1 -> length field = length lat ->
  on_line (opposite lat) (flipped s field) (swap s pole) (- x) w -> on_line lat field pole x (s * w).
Proof.
  intros Hs Hl H a b Ha Hb Hx Hab No.
  pose proof (H (- fst b, s * snd b) (- fst a, s * snd a)) as E. cbn [fst snd] in E.
  assert (E' : w * (- fst a - - fst b) = s * snd b * (- fst a - - x) + s * snd a * (- x - - fst b)).
  { apply E; [now apply node_opp..|lra|lra|]. intros c Hc [L1 L2].
    assert (Nc : is_node lat field pole (- fst c, s * snd c)).
    { destruct Hc as [->|[->|[i [Hi ->]]]]; unfold swap; cbn [fst snd].
      - right; left. f_equal. rewrite <- Rmult_assoc, Hs. ring.
      - left. f_equal; [ring|]. rewrite <- Rmult_assoc, Hs. ring.
      - rewrite opposite_length in Hi. right; right. exists (length lat - 1 - i)%nat. split; [lia|].
        rewrite opposite_nth, flipped_nth by lia. rewrite Hl, Ropp_involutive, <- Rmult_assoc, Hs. f_equal. ring. }
    apply (No _ Nc). cbn [fst]. lra. }
  replace (s * w * (fst b - fst a)) with (s * (w * (- fst a - - fst b))) by ring. rewrite E'.
  replace (s * (s * snd b * (- fst a - - x) + s * snd a * (- x - - fst b))) with (s * s * (snd b * (x - fst a) + snd a * (fst b - x))) by ring. rewrite Hs. ring.
Qed.
Lemma opposite_poles l : within_poles l -> within_poles (opposite l).
Proof. intros H x Hx. apply opposite_in, H in Hx. lra. Qed.
Lemma inner_poles l : inner_latitudes l -> within_poles l /\ NoDup l /\ ~ In 90 l /\ ~ In (-90) l.
Proof. intros [N B]. split; [intros x Hx; specialize (B x Hx); lra|]. split; [assumption|]. split; intros H; specialize (B _ H); lra. Qed.
Lemma opposite_inner l : inner_latitudes l -> inner_latitudes (opposite l).
Proof. intros [N B]. split; [now apply opposite_nodup|]. intros x Hx. apply opposite_in, B in Hx. lra. Qed.
Lemma nth_rev_opp xs k : (k < length xs)%nat -> nth (length xs - 1 - k) xs 0 = - nth k (opposite xs) 0.
Proof. intros H. rewrite opposite_nth by assumption. ring. Qed.

Lemma interp_1d_opp s lat field pole xs : s * s = 1 -> length field = length lat -> inner_latitudes lat -> within_poles xs ->
  interp1d_1d (flipped s field) (opposite lat) (swap s pole) (opposite xs) = on_ok (flipped s) (interp1d_1d field lat pole xs).
Proof.
  intros Hs Hl Hi Hx. destruct (inner_poles _ Hi) as [W [N [I1 I2]]]. destruct (inner_poles _ (opposite_inner _ Hi)) as [W' [N' [I1' I2']]].
  destruct (interp_1d_lemma lat field pole xs Hl W N Hx) as [v [E [L V]]].
  destruct (interp_1d_lemma (opposite lat) (flipped s field) (swap s pole) (opposite xs)) as [v' [E' [L' V']]]; [now rewrite flipped_length, opposite_length|assumption|assumption|now apply opposite_poles|].
  rewrite E, E'. cbn [on_ok]. f_equal. rewrite opposite_length in L', V'. apply (list_eq_nth 0); [now rewrite flipped_length, L, L'|].
  intros k Hk. rewrite L' in Hk. rewrite flipped_nth by lia. rewrite L.
  destruct (V' k Hk) as [_ [O' _]]. specialize (O' I1' I2'). destruct (V (length xs - 1 - k)%nat ltac:(lia)) as [_ [O _]]. specialize (O I1 I2).
  rewrite opposite_nth in O' by assumption. apply on_line_opp in O'; [|assumption..].
  assert (Hxk : -90 <= nth (length xs - 1 - k) xs 0 <= 90) by (apply Hx, nth_In; lia).
  rewrite (on_line_unique lat field pole _ _ _ Hl Hxk O O'). rewrite <- Rmult_assoc, Hs. ring.
Qed.
Lemma mcol_rev (m : mat) j : mcol (rev m) j = rev (mcol m j).
Proof. unfold mcol. apply map_rev. Qed.
Lemma interp_2d_opp nc lat field pole xs : (0 < length lat)%nat -> shaped (length lat) nc field -> inner_latitudes lat -> within_poles xs ->
  interp1d_2d (rev field) (opposite lat) (snd pole, fst pole) (opposite xs) = on_ok (@rev _) (interp1d_2d field lat pole xs).
Proof.
  intros H0 Sf Hi Hx. destruct (inner_poles _ Hi) as [W [N [I1 I2]]]. destruct (inner_poles _ (opposite_inner _ Hi)) as [W' [N' [I1' I2']]].
  assert (Sf' : shaped (length (opposite lat)) nc (rev field)) by (rewrite opposite_length; destruct Sf; split; [now rewrite rev_length|now apply Forall_rev]).
  destruct (interp_2d_lemma nc lat field pole xs H0 Sf W N Hx) as [v [E [L V]]].
  destruct (interp_2d_lemma nc (opposite lat) (rev field) (snd pole, fst pole) (opposite xs)) as [v' [E' [L' V']]];
    [now rewrite opposite_length|assumption..|now apply opposite_poles|].
  rewrite E, E'. cbn [on_ok]. f_equal. rewrite opposite_length in L', V'. apply (list_eq_nth []); [now rewrite rev_length, L, L'|].
  intros k Hk. rewrite L' in Hk. rewrite rev_nth by lia. rewrite L. replace (length xs - S k)%nat with (length xs - 1 - k)%nat by lia.
  destruct (V (length xs - 1 - k)%nat ltac:(lia)) as [R1 C1]. destruct (V' k Hk) as [R2 C2].
  apply (list_eq_nth None); [congruence|]. intros j Hj. rewrite R2 in Hj. specialize (C1 j Hj). specialize (C2 j Hj). cbv zeta in C1, C2.
  set (w := nth j (nth (length xs - 1 - k) v []) None) in *. set (w' := nth j (nth k v' []) None) in *.
  destruct C1 as [D1 [O1 _]], C2 as [D2 [O2 _]].
  destruct w' as [r'|]; [|exfalso; destruct (proj1 D2 eq_refl); contradiction]. destruct w as [r|]; [|exfalso; destruct (proj1 D1 eq_refl); contradiction].
  f_equal. destruct (O1 r eq_refl) as [_ P1]. destruct (O2 r' eq_refl) as [_ P2]. specialize (P1 I1 I2). specialize (P2 I1' I2').
  rewrite opposite_nth in P2 by assumption.
  assert (Hl : length (mcol field j) = length lat) by (rewrite mcol_length; apply Sf).
  rewrite mcol_rev in P2. replace (rev (mcol field j)) with (flipped 1 (mcol field j)) in P2.
  - replace (snd pole, fst pole) with (swap 1 pole) in P2 by (unfold swap; now rewrite !Rmult_1_l).
    apply on_line_opp in P2; [|ring|assumption]. rewrite Rmult_1_l in P2. symmetry.
    apply (on_line_unique lat (mcol field j) pole (nth (length xs - 1 - k) xs 0)); auto. apply Hx. apply nth_In. lia.
  - unfold flipped. f_equal. rewrite <- (map_id (mcol field j)) at 2. apply map_ext. intros t. ring.
Qed.

Lemma res_map_length {A B} (h : A -> res B) l r : res_map h l = Ok r -> length r = length l.
Proof.
  revert r. induction l as [|a l IH]; cbn [res_map]; intros r E; [now injection E as <-|].
  destruct (h a); [|discriminate]. cbn [bind] in E. destruct (res_map h l); [|discriminate]. cbn [bind] in E. injection E as <-. cbn. now rewrite (IH _ eq_refl).
Qed.

Section Grid.
Variables (res rs om : R) (nt : option Z) (g : grid).
Hypothesis Hg : mk_grid res rs om nt = Ok g.
Let F := mk_grid_facts _ _ _ _ _ Hg.
Let nr := g_nlat g.
Let N1 : (1 < nr)%nat := nlat_gt1' _ _ _ _ _ Hg.

Lemma lat_opp i : (i < nr)%nat -> nth (nr - 1 - i) (g_lat g) 0 = - nth i (g_lat g) 0.
Proof. intros H. now apply lat_reflected. Qed.
Lemma phi_opp i : (i < nr)%nat -> nth (nr - 1 - i) (g_phi g) 0 = - nth i (g_phi g) 0.
Proof.
  intros H. unfold g_phi. rewrite !(nth_map_lt _ _ _ 0) by (rewrite lat_length; fold nr; lia). rewrite lat_opp by assumption. unfold deg2rad. field.
Qed.

Lemma cq_mirror m Y Z : known_method m -> cq g m (fun i => Y (nr - 1 - i)%nat) (fun i => Z (nr - 1 - i)%nat) = cq g m Y Z.
Proof.
  intros [->| ->]; unfold cq; cbn [is_boxcount String.eqb Ascii.eqb Bool.eqb]; fold nr.
  - do 2 f_equal. rewrite <- (Rsum_tab_rev nr (fun i => if Rleb 0 (Z i) then nth i (gridpoint_area g) 0 * Y i else 0)). f_equal. apply tab_ext. intros i Hi.
    now rewrite (gpa_sym _ _ _ _ _ Hg i Hi).
  - rewrite <- (Rsum_tab_rev (nr - 1) (sg (g_rsphere g) (fun i => nth i (g_phi g) 0) Y Z)). f_equal. apply tab_ext. intros i Hi.
    unfold sg. pose proof (phi_step _ _ _ _ _ Hg i ltac:(lia)) as Hs.
    replace (nr - 1 - 1 - i)%nat with (nr - 1 - S i)%nat by lia. replace (S (nr - 1 - S i)) with (nr - 1 - i)%nat by lia.
    rewrite (phi_opp (S i)), (phi_opp i) by lia. symmetry. apply seg_mirror. lra.
Qed.

Lemma cq_split' m Y Z : known_method m ->
  (m = "boxcount"%string -> forall i, (i < nr)%nat -> Z i = 0 -> Y i = 0) ->
  (m = "sptrapz"%string -> forall i, (S i < nr)%nat -> Z i = 0 -> Z (S i) = 0 -> Y i = 0 /\ Y (S i) = 0) ->
  cq g m Y Z + cq g m Y (fun i => - Z i) = cq g m Y (fun _ => 1).
Proof.
  intros [->| ->] H1 H2; unfold cq; cbn [is_boxcount String.eqb Ascii.eqb Bool.eqb]; fold nr.
  - unfold Rdiv. rewrite <- !Rmult_plus_distr_r, <- Rsum_tab_plus. do 3 f_equal. apply tab_ext. intros i Hi.
    replace (Rleb 0 1) with true by (symmetry; apply Rleb_true; lra). specialize (H1 eq_refl i Hi).
    destruct (Rleb 0 (Z i)) eqn:E, (Rleb 0 (- Z i)) eqn:E'; rewrite ?Rleb_true, ?Rleb_false in *; try lra. rewrite H1 by lra. ring.
  - rewrite <- Rsum_tab_plus. f_equal. apply tab_ext. intros i Hi. unfold sg. apply seg_split.
    + pose proof (phi_step _ _ _ _ _ Hg i ltac:(lia)). lra.
    + intros. apply (H2 eq_refl); auto. fold nr in Hi; lia.
Qed.
Lemma cq_neg m Y Z : cq g m (fun i => - Y i) Z = - cq g m Y Z.
Proof.
  pose proof (cq_linear g m Y Y Z (-1) 0) as E. rewrite (cq_ext g m (fun i => - Y i) Z (fun i => -1 * Y i + 0 * Y i) Z) by (intros; auto; ring). rewrite E. ring.
Qed.

(** ** area and equivalent latitude *)
Lemma eqlat_opp a : eqlat1 g (4 * PI * (rs * rs) - a) = - eqlat1 g a.
Proof.
  unfold eqlat1. pose proof (gf_rs_pos _ _ _ _ F) as Hr. pose proof PI_RGT_0. rewrite (gf_rs _ _ _ _ F).
  set (t := 1 - / 2 * a / PI / (rs * rs)).
  replace (1 - / 2 * (4 * PI * (rs * rs) - a) / PI / (rs * rs)) with (- t) by (unfold t; field; split; lra).
  assert (E : forall u, rad2deg (asin (- u)) = - rad2deg (asin u)) by (intros u; rewrite asin_opp; unfold rad2deg; field; lra).
  rewrite <- E. f_equal. f_equal.
  destruct (Rleb 1 (- t)) eqn:A, (Rleb 1 t) eqn:B; rewrite ?Rleb_true, ?Rleb_false in *; try lra.
  - replace (Rleb t (-1)) with true by (symmetry; apply Rleb_true; lra). destruct (Rleb 1 (-1)) eqn:C; rewrite ?Rleb_true in C; lra.
  - replace (Rleb (- t) (-1)) with true by (symmetry; apply Rleb_true; lra). destruct (Rleb 1 (-1)) eqn:C; rewrite ?Rleb_true in C; lra.
  - destruct (Rleb (- t) (-1)) eqn:C, (Rleb t (-1)) eqn:D; rewrite ?Rleb_true, ?Rleb_false in *; lra.
Qed.

Lemma farea_opp_kappa m nc f q : known_method m -> (0 < nc <= g_nlon g)%nat -> shaped nr nc f -> no_ties m nr nc f q ->
  farea res rs g m nc (mirror (-1) f) (- q) = 4 * PI * (rs * rs) * kappa res g - farea res rs g m nc f q.
Proof.
  intros Hm Hc Sf [T1 T2]. unfold farea, carea.
  replace (Rsum (tab nc (fun j => cq g m (fun _ => 1) (fun i => mget (mirror (-1) f) i j - - q))))
    with (INR nc * (2 * rs) - Rsum (tab nc (fun j => cq g m (fun _ => 1) (fun i => mget f i j - q)))).
  - unfold kappa, deg2rad. pose proof PI_RGT_0. assert (INR nc <> 0) by (apply not_0_INR; lia).
    set (S := Rsum _). field. assumption.
  - rewrite <- Rsum_tab_const. unfold Rminus at 1. replace (- Rsum (tab nc (fun j => cq g m (fun _ => 1) (fun i => mget f i j - q))))
      with (-1 * Rsum (tab nc (fun j => cq g m (fun _ => 1) (fun i => mget f i j - q)))) by ring.
    rewrite <- Rsum_tab_scal, <- Rsum_tab_plus. f_equal. apply tab_ext. intros j Hj.
    rewrite <- (cq_one _ _ _ _ _ Hg m Hm). rewrite <- (cq_split' m (fun _ => 1) (fun i => mget f i j - q)); [|assumption|..].
    + rewrite (cq_ext g m (fun _ => 1) (fun i => mget (mirror (-1) f) i j - - q) (fun _ => 1) (fun i => - (mget f (nr - 1 - i) j - q))).
      * rewrite (cq_mirror m (fun _ => 1) (fun i => - (mget f i j - q))) by assumption. ring.
      * reflexivity.
      * intros i Hi. rewrite (mget_mirror _ nr nc) by assumption. ring.
    + intros E i Hi Z0. exfalso. apply (T1 E i j Hi Hj). lra.
    + intros E i Hi Z0 Z1. exfalso. apply (T2 E i j Hi Hj). split; lra.
Qed.

Lemma farea_opp m nc f q : is_integer (360 / res) -> known_method m -> (0 < nc <= g_nlon g)%nat -> shaped nr nc f -> no_ties m nr nc f q ->
  farea res rs g m nc (mirror (-1) f) (- q) = 4 * PI * (rs * rs) - farea res rs g m nc f q.
Proof. intros HI Hm Hc Sf T. rewrite farea_opp_kappa by assumption. apply (kappa_one _ _ _ _ _ Hg) in HI. rewrite HI. ring. Qed.

(** ** levels *)
Lemma auto_opp lo hi n : auto_levels (- hi) (- lo) n = opposite (auto_levels lo hi n).
Proof.
  rewrite !auto_levels_tab. apply (list_eq_nth 0); [now rewrite opposite_length, !tab_length|]. intros k Hk. rewrite tab_length in Hk.
  rewrite opposite_nth by now rewrite tab_length. rewrite tab_length, !tab_nth by lia.
  replace (-1 + INR (S (n - 1 - k)) * (2 / INR (n + 1))) with (- (-1 + INR (S k) * (2 / INR (n + 1)))).
  - replace (/ 2 * PI * - (-1 + INR (S k) * (2 / INR (n + 1)))) with (- (/ 2 * PI * (-1 + INR (S k) * (2 / INR (n + 1))))) by ring. rewrite sin_neg. ring.
  - replace (S (n - 1 - k)) with (n - k)%nat by lia. rewrite minus_INR by lia. rewrite S_INR, plus_INR. simpl (INR 1). assert (0 <= INR n) by apply pos_INR. field. lra.
Qed.
Lemma extremes_mirror nc f : (0 < nc)%nat -> shaped nr nc f -> mmin (mirror (-1) f) = - mmax f /\ mmax (mirror (-1) f) = - mmin f.
Proof.
  intros Hc Sf. destruct (extremes_exist nr nc f) as [lo [hi E]]; [lia|lia|assumption|].
  destruct (mmin_mmax nr nc f lo hi Sf E) as [-> ->]. apply (mmin_mmax nr nc); [now apply shaped_mirror|].
  destruct E as [B [[i [j [Hi [Hj E1]]]] [k [l [Hk [Hl E2]]]]]]. split; [|split].
  - intros a b Ha Hb. rewrite (mget_mirror _ nr nc) by assumption. specialize (B (nr - 1 - a)%nat b ltac:(lia) Hb). lra.
  - exists (nr - 1 - k)%nat, l. split; [lia|]. split; [assumption|]. rewrite (mget_mirror _ nr nc) by (auto; lia). replace (nr - 1 - (nr - 1 - k))%nat with k by lia. lra.
  - exists (nr - 1 - i)%nat, j. split; [lia|]. split; [assumption|]. rewrite (mget_mirror _ nr nc) by (auto; lia). replace (nr - 1 - (nr - 1 - i))%nat with i by lia. lra.
Qed.
Lemma levels_mirror nc f levels qd : (0 < nc)%nat -> shaped nr nc f ->
  zonalize_levels g (mmin (mirror (-1) f)) (mmax (mirror (-1) f)) (opposite_levels levels) qd = opposite (zonalize_levels g (mmin f) (mmax f) levels qd).
Proof.
  intros Hc Sf. destruct (extremes_mirror nc f Hc Sf) as [-> ->]. destruct levels; cbn [zonalize_levels opposite_levels]; [apply auto_opp..|reflexivity].
Qed.

Lemma lat_opposite : opposite (g_lat g) = g_lat g.
Proof.
  apply (list_eq_nth 0); [apply opposite_length|]. intros k Hk. rewrite opposite_length, lat_length in Hk. fold nr in Hk.
  rewrite opposite_nth by (rewrite lat_length; exact Hk). rewrite lat_length. fold nr. rewrite lat_opp by assumption. ring.
Qed.
Lemma mid_opposite : opposite (midpoints (g_lat g)) = midpoints (g_lat g).
Proof.
  apply (list_eq_nth 0); [apply opposite_length|]. intros k Hk. rewrite opposite_length, midpoints_length, lat_length in Hk. fold nr in Hk.
  rewrite opposite_nth by (rewrite midpoints_length, lat_length; exact Hk). rewrite midpoints_length, lat_length. fold nr. rewrite !midpoints_nth by (rewrite lat_length; fold nr; lia).
  replace (nr - 1 - 1 - k)%nat with (nr - 1 - S k)%nat by lia. replace (S (nr - 1 - S k)) with (nr - 1 - k)%nat by lia. rewrite !lat_opp by lia. ring.
Qed.
Lemma opposite_nil l : opposite l = [] <-> l = [].
Proof. split; intros H; [|now rewrite H]. apply (f_equal (@length R)) in H. rewrite opposite_length in H. now destruct l. Qed.

Lemma contours_mirror nc f levels qd q y : is_integer (360 / res) -> known_method qd -> (0 < nc <= g_nlon g)%nat -> shaped nr nc f ->
  zonalize_contours g f levels qd = Ok (q, y) -> (forall t, In t q -> no_ties qd nr nc f t) ->
  zonalize_contours g (mirror (-1) f) (opposite_levels levels) qd = Ok (opposite q, opposite y).
Proof.
  intros HI Hm Hc Sf E T. set (q0 := zonalize_levels g (mmin f) (mmax f) levels qd).
  assert (Hq : q0 <> []).
  { intros E0. unfold zonalize_contours in E. fold q0 in E. rewrite E0 in E. destruct (_ || _); discriminate. }
  rewrite (zonalize_form _ _ _ _ _ Hg nc) in E by assumption. fold q0 in E. injection E as E1 E2. subst q y.
  assert (S' : shaped nr nc (mirror (-1) f)) by now apply shaped_mirror.
  pose proof (levels_mirror nc f levels qd ltac:(lia) Sf) as EL. fold q0 in EL.
  rewrite (zonalize_form _ _ _ _ _ Hg nc) by (try assumption; rewrite EL; intros X; apply (proj1 (opposite_nil _)) in X; exact (Hq X)).
  rewrite EL. f_equal. f_equal. unfold opposite. rewrite map_rev. f_equal. rewrite !map_map. apply map_ext_in. intros t Ht.
  change (eqlat1 g (farea res rs g qd nc (mirror (-1) f) (- t)) = - eqlat1 g (farea res rs g qd nc f t)).
  rewrite farea_opp by auto. apply eqlat_opp.
Qed.
Lemma contours_lengths f levels qd q y : zonalize_contours g f levels qd = Ok (q, y) -> length q = length y.
Proof.
  unfold zonalize_contours. destruct (_ || _); [discriminate|]. set (l := zonalize_levels _ _ _ _ _). destruct l as [|a l]; [discriminate|].
  destruct (res_map _ (a :: l)) as [ar|e] eqn:E; [|discriminate]. cbn [bind equivalent_latitude]. intros X. injection X as <- <-.
  apply res_map_length in E. now rewrite !map_length.
Qed.
Lemma opp_flipped l : opposite l = flipped (-1) l.
Proof. unfold opposite, flipped. f_equal. apply map_ext. intros t. ring. Qed.
Lemma lat_in_poles : within_poles (g_lat g).
Proof. intros x Hx. now apply lat_bounds in Hx. Qed.
Lemma mid_inner : inner_latitudes (midpoints (g_lat g)).
Proof.
  assert (Bn : forall k, (S k < nr)%nat -> nth (S k) (g_lat g) 0 < nth k (g_lat g) 0).
  { intros k Hk. pose proof (phi_step _ _ _ _ _ Hg k ltac:(fold nr; lia)) as X. unfold g_phi in X. rewrite !(nth_map_lt _ _ _ 0) in X by (rewrite lat_length; fold nr; lia).
    now apply deg2rad_lt in X. }
  assert (Md : forall k l, (k < l)%nat -> (l < nr)%nat -> nth l (g_lat g) 0 < nth k (g_lat g) 0).
  { intros k l Hkl. induction Hkl as [|l Hkl IH]; intros Hl; [now apply Bn|]. specialize (IH ltac:(lia)). specialize (Bn l Hl). lra. }
  assert (Lm : length (midpoints (g_lat g)) = (nr - 1)%nat) by now rewrite midpoints_length, lat_length.
  assert (Pk : forall k, (k < nr)%nat -> -90 <= nth k (g_lat g) 0 <= 90) by (intros k Hk; apply lat_in_poles, nth_In; now rewrite lat_length).
  assert (Mn : forall k, (k < nr - 1)%nat -> nth k (midpoints (g_lat g)) 0 = / 2 * (nth k (g_lat g) 0 + nth (S k) (g_lat g) 0))
    by (intros k Hk; apply midpoints_nth; rewrite lat_length; fold nr; lia).
  assert (Dm : forall k l, (k < l)%nat -> (l < nr - 1)%nat -> nth l (midpoints (g_lat g)) 0 < nth k (midpoints (g_lat g)) 0).
  { intros k l Hkl Hl. rewrite !Mn by lia. pose proof (Md k l Hkl ltac:(lia)). pose proof (Md (S k) (S l) ltac:(lia) ltac:(lia)). lra. }
  split.
  - apply (NoDup_nth _ 0). rewrite Lm. intros i j Hi Hj E. destruct (Nat.lt_trichotomy i j) as [L|[L|L]]; [|assumption|].
    + pose proof (Dm i j L Hj). lra.
    + pose proof (Dm j i L Hi). lra.
  - intros x Hx. apply (In_nth _ _ 0) in Hx. destruct Hx as [k [Hk <-]]. rewrite Lm in Hk. rewrite Mn by assumption.
    pose proof (Pk k ltac:(lia)). pose proof (Pk (S k) ltac:(lia)). pose proof (Bn k ltac:(lia)). lra.
Qed.

Lemma zonalize_mirror nc f levels qd q y : is_integer (360 / res) -> known_method qd -> (0 < nc <= g_nlon g)%nat -> shaped nr nc f ->
  zonalize_contours g f levels qd = Ok (q, y) -> (forall t, In t q -> no_ties qd nr nc f t) -> inner_latitudes y ->
  zonalize g (mirror (-1) f) (opposite_levels levels) qd = on_ok opposite (zonalize g f levels qd).
Proof.
  intros HI Hm Hc Sf E T Y. unfold zonalize. rewrite (contours_mirror nc f levels qd q y) by assumption. rewrite E. cbn [bind fst snd].
  destruct (extremes_mirror nc f ltac:(lia) Sf) as [-> ->]. unfold interpolate_meridional_1d.
  pose proof (interp_1d_opp (-1) y q (mmax f, mmin f) (g_lat g) ltac:(ring) (contours_lengths _ _ _ _ _ E) Y lat_in_poles) as X.
  rewrite lat_opposite in X. unfold swap in X. cbn [fst snd] in X.
  rewrite opp_flipped at 1. replace (- mmin f, - mmax f) with (-1 * mmin f, -1 * mmax f) by (f_equal; ring). rewrite X.
  destruct (interp1d_1d q y _ _); cbn [on_ok]; [|reflexivity]. now rewrite opp_flipped.
Qed.

(** ** wave activity *)
Section Wave.
Variable pv : mat.
Hypothesis Spv : shaped nr (g_nlon g) pv.
Let pv' := mirror (-1) pv.
Lemma wave_mirror m q y j : known_method m -> (j < g_nlon g)%nat -> (m = "boxcount"%string -> forall i, (i < nr)%nat -> nth i (g_lat g) 0 <> y) ->
  wave g pv' m (- q) (- y) j = wave g pv m q y j.
Proof.
  intros Hm Hj HB. unfold wave.
  assert (Ld : forall i, (S i < nr)%nat -> nth (S i) (g_lat g) 0 < nth i (g_lat g) 0).
  { intros k Hk. pose proof (phi_step _ _ _ _ _ Hg k ltac:(fold nr; lia)) as X. unfold g_phi in X. rewrite !(nth_map_lt _ _ _ 0) in X by (rewrite lat_length; fold nr; lia).
    now apply deg2rad_lt in X. }
  set (a := Pc pv q j). set (w := Wc g y).
  assert (EP : forall i, (i < g_nlat g)%nat -> Pc pv' (- q) j i = - a (nr - 1 - i)%nat).
  { intros i Hi. unfold Pc, a, pv'. rewrite (mget_mirror _ nr (g_nlon g)) by assumption. unfold Pc. ring. }
  assert (EW : forall i, (i < g_nlat g)%nat -> Wc g (- y) i = - w (nr - 1 - i)%nat).
  { intros i Hi. unfold Wc, w, Wc. rewrite lat_opp by assumption. ring. }
  rewrite (cq_ext g m (Pc pv' (- q) j) (Pc pv' (- q) j) (fun i => - a (nr - 1 - i)%nat) (fun i => - a (nr - 1 - i)%nat)) by assumption.
  rewrite (cq_ext g m (Pc pv' (- q) j) (Wc g (- y)) (fun i => - a (nr - 1 - i)%nat) (fun i => - w (nr - 1 - i)%nat)) by assumption.
  rewrite (cq_mirror m (fun i => - a i) (fun i => - a i)) by assumption. rewrite (cq_mirror m (fun i => - a i) (fun i => - w i)) by assumption.
  rewrite !cq_neg.
  pose proof (cq_split' m a a Hm ltac:(auto) ltac:(auto)) as S1.
  assert (S2 : cq g m a w + cq g m a (fun i => - w i) = cq g m a (fun _ => 1)).
  { apply cq_split'; [assumption|..].
    - intros E i Hi Z. exfalso. apply (HB E i Hi). unfold w, Wc in Z. lra.
    - intros E i Hi Z1 Z2. exfalso. specialize (Ld i Hi). unfold w, Wc in Z1, Z2. lra. }
  lra.
Qed.
Lemma cosd_even y : np_cosd (- y) = np_cosd y.
Proof. unfold np_cosd. replace (deg2rad (- y)) with (- deg2rad y) by (unfold deg2rad; field). now rewrite cos_neg. Qed.
Lemma frow_mirror m q y : known_method m -> (m = "boxcount"%string -> forall i, (i < nr)%nat -> nth i (g_lat g) 0 <> y) ->
  frow g pv' m (- q) (- y) = frow g pv m q y.
Proof. intros Hm HB. unfold frow. apply tab_ext. intros j Hj. rewrite cosd_even. f_equal. now apply wave_mirror. Qed.

Lemma background_mirror levels qd q y : is_integer (360 / res) -> known_method qd ->
  zonalize_contours g pv levels qd = Ok (q, y) -> (forall t, In t q -> no_ties qd nr (g_nlon g) pv t) -> (qd = "boxcount"%string -> inner_latitudes y) ->
  falwa_background g pv' (opposite_levels levels) qd = on_ok (fun r => (opposite (fst r), opposite (snd r))) (falwa_background g pv levels qd).
Proof.
  intros HI Hm E T Y. pose proof (nlon_pos _ _ _ _ _ Hg) as P. unfold falwa_background, pv'.
  rewrite (contours_mirror (g_nlon g) pv levels qd q y) by (auto; lia). rewrite E. cbn [bind].
  destruct Hm as [->| ->]; cbn [is_boxcount String.eqb Ascii.eqb Bool.eqb]; [|reflexivity].
  destruct (extremes_mirror (g_nlon g) pv ltac:(lia) Spv) as [-> ->].
  assert (W : within_poles (midpoints (g_lat g))) by apply (inner_poles _ mid_inner).
  pose proof (interp_1d_opp (-1) y q (mmax pv, mmin pv) (midpoints (g_lat g)) ltac:(ring) (contours_lengths _ _ _ _ _ E) (Y eq_refl) W) as X.
  rewrite mid_opposite in X. unfold swap in X. cbn [fst snd] in X.
  rewrite opp_flipped at 1. replace (- mmin pv, - mmax pv) with (-1 * mmin pv, -1 * mmax pv) by (f_equal; ring). rewrite X.
  destruct (interp1d_1d q y _ _); cbn [on_ok bind fst snd]; [|reflexivity]. now rewrite mid_opposite, opp_flipped.
Qed.
Lemma combine_opposite q y : length q = length y -> combine (opposite q) (opposite y) = rev (map (fun p => (- fst p, - snd p)) (combine q y)).
Proof.
  intros H. apply (list_eq_nth (0, 0)); [rewrite combine_length, rev_length, map_length, combine_length, !opposite_length; reflexivity|].
  intros k Hk. rewrite combine_length, !opposite_length in Hk. rewrite combine_nth by now rewrite !opposite_length. rewrite !opposite_nth by lia.
  rewrite rev_nth by (rewrite map_length, combine_length; lia). rewrite map_length, combine_length, (nth_map_lt _ _ _ (0, 0)) by (rewrite combine_length; lia).
  rewrite combine_nth by assumption. cbn [fst snd]. do 3 f_equal; lia.
Qed.
Lemma mid_off_grid y i : In y (midpoints (g_lat g)) -> (i < nr)%nat -> nth i (g_lat g) 0 <> y.
Proof.
  intros Hy Hi E. apply (In_nth _ _ 0) in Hy. destruct Hy as [k [Hk Ek]]. rewrite midpoints_length, lat_length in Hk. fold nr in Hk. rewrite midpoints_nth in Ek by (rewrite lat_length; fold nr; lia).
  rewrite <- E in Ek. rewrite !lat_nth in Ek by (fold nr; lia). fold nr in Ek.
  assert (P : 0 < INR (nr - 1)) by (apply lt_0_INR; lia). rewrite S_INR in Ek.
  assert (Q : 2 * INR i = 2 * INR k + 1).
  { apply Rmult_eq_reg_r with (180 / INR (nr - 1)); [|apply Rgt_not_eq, Rdiv_lt_0_compat; lra]. unfold Rdiv in *. lra. }
  assert (Z : INR (2 * i) = INR (2 * k + 1)) by (rewrite plus_INR, !mult_INR; simpl; lra). apply INR_eq in Z. lia.
Qed.
Lemma falwa_contours_mirror levels qd q y : is_integer (360 / res) -> known_method qd ->
  zonalize_contours g pv levels qd = Ok (q, y) -> (forall t, In t q -> no_ties qd nr (g_nlon g) pv t) -> (qd = "boxcount"%string -> inner_latitudes y) ->
  falwa_contours g pv' (opposite_levels levels) qd = on_ok (fun r => (rev (fst r), opposite (snd r))) (falwa_contours g pv levels qd).
Proof.
  intros HI Hm E T Y. pose proof (background_mirror levels qd q y HI Hm E T Y) as B. assert (S' : shaped nr (g_nlon g) pv') by now apply shaped_mirror.
  destruct (falwa_background g pv levels qd) as [[qq yy]|e] eqn:EB; cbn [on_ok fst snd] in B.
  - rewrite (contours_form _ _ _ _ _ Hg pv' S' (opposite_levels levels) qd _ _ Hm B), (contours_form _ _ _ _ _ Hg pv Spv levels qd _ _ Hm EB). cbn [on_ok fst snd]. f_equal. f_equal.
    assert (Hl : length qq = length yy /\ (qd = "boxcount"%string -> yy = midpoints (g_lat g))).
    { destruct (contours_inv _ _ _ _ _ Hg pv Spv levels qd _ _ Hm (contours_form _ _ _ _ _ Hg pv Spv levels qd _ _ Hm EB)) as [qq' [_ [E1 [_ [E2 [_ [_ [_ E3]]]]]]]].
      rewrite EB in E1. injection E1 as <-. auto. }
    destruct Hl as [Hl Hb]. unfold frows. rewrite combine_opposite by assumption. rewrite map_rev, map_map. f_equal. apply map_ext_in. intros [a b] Hp. cbn [fst snd].
    apply frow_mirror; [assumption|]. intros Eq i Hi. apply mid_off_grid; [|assumption]. rewrite <- (Hb Eq). now apply in_combine_r in Hp.
  - unfold falwa_contours. now rewrite B, EB.
Qed.
End Wave.
End Grid.
