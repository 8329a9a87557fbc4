(** Forcing expressions and integrations on the rotated and reflected sphere. *)
From Coq Require Export String.
From Verif Require Import Base Model_Grid Model_Time Model_Spectral Model_State Model_Run Model_RHS Spec_Grid Spec_Spectral Spec_Instance Spec_State Spec_Run Spec_RHS Spec_Sym Spec_Symmetry Spec_SymForcing.
From Verif Require Import Proofs_Base Proofs_Grid Proofs_Spectral Proofs_Instance Proofs_State Proofs_Step Proofs_Run Proofs_RHS Proofs_Orog Proofs_Sym Proofs_Symmetry Proofs_SymInst.
From Coquelicot Require Import Complex.
From Coq Require Import List Lia Lra Permutation.
Import ListNotations.
Open Scope R_scope.

Section Motion.
Context {K : numtype} (T : sphfam) (g : grid) (H : exact_on T g) (f : state K -> state K) (F : R -> mat -> mat) (sg : R) (ri p : nat -> nat).
Notation nr := (g_nlat g).
Notation nc := (g_nlon g).
Notation N := (nspec (g_ntrunc g)).
Notation on_g s := (s_grid s = g /\ length (s_pvs s) = N).
Hypothesis Hsg : sg = 1 \/ sg = -1.
Hypothesis Hri : forall i, (i < nr)%nat -> (ri i < nr)%nat.
Hypothesis Hp : permutes nc p.
Hypothesis HF : forall s m, s = 1 \/ s = sg -> shaped nr nc m ->
  shaped nr nc (F s m) /\ forall i j, (i < nr)%nat -> (j < nc)%nat -> mget (F s m) i j = s * mget m (ri i) (p j).
Hypothesis Hf : forall s, on_g s -> s_grid (f s) = g /\ s_time (f s) = s_time s
  /\ s_pv T (f s) = F sg (s_pv T s) /\ s_u T (f s) = F 1 (s_u T s) /\ s_v T (f s) = F sg (s_v T s).
Hypothesis Hgrad : forall h, shaped nr nc h -> gradient T g (F 1 h) = (F 1 (fst (gradient T g h)), F sg (snd (gradient T g h))).
Hypothesis Hlat : forall i, (i < nr)%nat -> sin (deg2rad (nth (ri i) (g_lat g) 0)) = sg * sin (deg2rad (nth i (g_lat g) 0))
  /\ cos (deg2rad (nth (ri i) (g_lat g) 0)) = cos (deg2rad (nth i (g_lat g) 0)).

Lemma F_map2 (op : R -> R -> R) s t u m n : s = 1 \/ s = sg -> t = 1 \/ t = sg -> u = 1 \/ u = sg ->
  (forall x y, op (s * x) (t * y) = u * op x y) -> shaped nr nc m -> shaped nr nc n ->
  map2 (map2 op) (F s m) (F t n) = F u (map2 (map2 op) m n).
Proof.
  intros Hs Ht Hu Hop Sm Sn. destruct (HF s m Hs Sm) as [S1 G1], (HF t n Ht Sn) as [S2 G2], (HF u (map2 (map2 op) m n) Hu (shaped_map2 _ _ op _ _ Sm Sn)) as [S3 G3].
  apply (mat_ext nr nc); auto using shaped_map2. intros i j Hi Hj.
  pose proof (Hri i Hi). pose proof (proj1 Hp j Hj). rewrite (mget_map2 nr nc), G1, G2, G3, (mget_map2 nr nc); auto.
Qed.
Lemma F_mmap (op : R -> R) s t m : s = 1 \/ s = sg -> t = 1 \/ t = sg -> (forall x, op (s * x) = t * op x) -> shaped nr nc m ->
  mmap op (F s m) = F t (mmap op m).
Proof.
  intros Hs Ht Hop Sm. destruct (HF s m Hs Sm) as [S1 G1], (HF t (mmap op m) Ht (shaped_mmap _ _ op _ Sm)) as [S3 G3].
  apply (mat_ext nr nc); auto using shaped_mmap. intros i j Hi Hj.
  pose proof (Hri i Hi). pose proof (proj1 Hp j Hj). rewrite (mget_mmap nr nc), G1, G3, (mget_mmap nr nc); auto.
Qed.
Definition typed (s : R) (v : fval) : Prop := fits nr nc v /\ (s = 1 \/ exists m, v = FMat m).
Lemma F_sum s a b : s = 1 \/ s = sg -> typed s a -> typed s b ->
  fbin Rplus (map_value (F s) a) (map_value (F s) b) = on_ok (map_value (F s)) (fbin Rplus a b) /\ forall v, fbin Rplus a b = Ok v -> typed s v.
Proof.
  intros Hs [Fa Ka] [Fb Kb]. split.
  - destruct a as [x|m], b as [y|n]; cbn [fbin map_value on_ok fits] in *.
    + reflexivity.
    + destruct Ka as [->|[? E]]; [|discriminate E]. do 2 f_equal. apply F_mmap; auto. intros; ring.
    + destruct Kb as [->|[? E]]; [|discriminate E]. do 2 f_equal. apply (F_mmap (fun z => z + y)); auto. intros; ring.
    + rewrite (same_shape_true nr nc m n), (same_shape_true nr nc (F s m) (F s n)); try apply HF; auto. cbn. do 2 f_equal. apply F_map2; auto. intros; ring.
  - intros v E. destruct (fbin_fits Rplus nr nc a b Fa Fb) as [v' [E' [Fv _]]]. rewrite E in E'. injection E' as <-. split; [assumption|].
    destruct Ka as [->|[m ->]]; [now left|]. right. destruct b; cbn in E; [injection E as <-; eauto|]. destruct same_shape; [injection E as <-; eauto|discriminate E].
Qed.
Lemma sign_mul s t : s = 1 \/ s = sg -> t = 1 \/ t = sg -> s * t = 1 \/ s * t = sg.
Proof. intros [->| ->] [->| ->]; [left; ring|right; ring|right; ring|left; destruct Hsg as [->| ->]; ring]. Qed.
Lemma F_prod s t a b : s = 1 \/ s = sg -> t = 1 \/ t = sg -> typed s a -> typed t b ->
  fbin Rmult (map_value (F s) a) (map_value (F t) b) = on_ok (map_value (F (s * t))) (fbin Rmult a b) /\ forall v, fbin Rmult a b = Ok v -> typed (s * t) v.
Proof.
  intros Hs Ht [Fa Ka] [Fb Kb]. pose proof (sign_mul s t Hs Ht) as Hst. split.
  - destruct a as [x|m], b as [y|n]; cbn [fbin map_value on_ok fits] in *.
    + reflexivity.
    + destruct Ka as [->|[? E]]; [|discriminate E]. do 2 f_equal. apply F_mmap; auto. intros; ring.
    + destruct Kb as [->|[? E]]; [|discriminate E]. do 2 f_equal. apply (F_mmap (fun z => z * y)); auto. intros; ring.
    + rewrite (same_shape_true nr nc m n), (same_shape_true nr nc (F s m) (F t n)); try apply HF; auto. cbn. do 2 f_equal. apply F_map2; auto. intros; ring.
  - intros v E. destruct (fbin_fits Rmult nr nc a b Fa Fb) as [v' [E' [Fv _]]]. rewrite E in E'. injection E' as <-. split; [assumption|].
    destruct a as [x|m], b as [y|n]; cbn in E.
    + destruct Ka as [->|[? E1]]; [|discriminate E1]. destruct Kb as [->|[? E1]]; [|discriminate E1]. left; ring.
    + injection E as <-. eauto.
    + injection E as <-. eauto.
    + destruct same_shape; [injection E as <-; eauto|discriminate E].
Qed.
Lemma zonal_sum u i : shaped nr nc u -> (i < nr)%nat -> Rsum (tab nc (fun j => mget (F 1 u) i j)) = Rsum (tab nc (fun j => mget u (ri i) j)).
Proof.
  intros Su Hi. destruct (HF 1 u (or_introl eq_refl) Su) as [_ G]. rewrite (tab_ext nc _ (fun j => mget u (ri i) (p j))).
  2:{ intros j Hj. rewrite G by assumption. ring. }
  apply Rsum_perm. unfold tab. rewrite <- (map_map p (fun j => mget u (ri i) j)). apply Permutation_map. now apply permutes_perm.
Qed.
Lemma F_orog r r' h w a c st : h <> 0 -> orography r' g = on_ok (F 1) (orography r g) -> on_g st ->
  call T (POrog (mkOrog r' h w a (option_map (Rmult sg) c))) (f st) = on_ok (map_value (F sg)) (call T (POrog (mkOrog r h w a c)) st)
  /\ forall v, call T (POrog (mkOrog r h w a c)) st = Ok v -> typed sg v.
Proof.
  intros Hh Er On. cbn [call]. destruct (Hf st On) as [G' [_ [_ [EU EV]]]]. pose proof (proj1 On) as G.
  set (o := mkOrog r h w a c). set (o' := mkOrog r' h w a _).
  destruct (orography r g) as [hh|e] eqn:Eo; cbn [on_ok] in Er.
  2:{ unfold orog_call, orography_gradient. cbn [o_relief o o']. rewrite G, G', Eo, Er. cbn. split; [reflexivity|discriminate]. }
  pose proof (orography_shaped g r hh Eo) as Sh.
  destruct (orog_call_get T g H o st hh G Hh Eo) as [A [EA [SA GA]]].
  destruct (orog_call_get T g H o' (f st) (F 1 hh) G' Hh Er) as [B [EB [SB GB]]].
  rewrite EA, EB. cbn [on_ok map_value]. split.
  2:{ intros v [= <-]. split; [exact SA|right; eauto]. }
  do 2 f_equal. destruct (HF sg A (or_intror eq_refl) SA) as [SFA GFA]. apply (mat_ext nr nc); auto. intros i j Hi Hj.
  pose proof (Hri i Hi) as Hi'. pose proof (proj1 Hp j Hj) as Hj'. rewrite GB, GFA, GA, Hgrad by assumption. cbn [fst snd].
  pose proof (et_grad_shape _ _ _ _ H (to_spectral T g hh)) as [SX SY].
  destruct (HF 1 (fst (gradient T g hh)) (or_introl eq_refl) SX) as [_ ->]; [|assumption..].
  destruct (HF sg (snd (gradient T g hh)) (or_intror eq_refl) SY) as [_ ->]; [|assumption..].
  destruct (uv_shaped T g H st G) as [SU SV]. destruct (Hlat i Hi) as [LS LC].
  assert (Ef : forcing_f g o' i = sg * forcing_f g o (ri i)).
  { unfold forcing_f, o, o'. cbn [o_fcor_ref]. destruct c as [c|]; cbn [option_map]; [reflexivity|]. rewrite LS. destruct Hsg as [->| ->]; ring. }
  assert (Eu : forcing_u T g o' (f st) i j = forcing_u T g o st (ri i) (p j)).
  { unfold forcing_u, o, o'. cbn [o_wind o_fact]. rewrite EU. destruct w.
    - destruct (HF 1 (s_u T st) (or_introl eq_refl) SU) as [_ ->]; [|assumption..]. ring.
    - now rewrite zonal_sum.
    - now rewrite LC. }
  assert (Ev : forcing_v T o' (f st) i j = sg * forcing_v T o st (ri i) (p j)).
  { unfold forcing_v, o, o'. cbn [o_wind o_fact]. rewrite EV. destruct w; [|ring..].
    destruct (HF sg (s_v T st) (or_intror eq_refl) SV) as [_ ->]; [|assumption..]. ring. }
  rewrite Ef, Eu, Ev. unfold o, o'. cbn [o_scale_height]. destruct Hsg as [->| ->]; field; assumption.
Qed.
Lemma alike_call s a a' : alike g f F sg s a a' -> (s = 1 \/ s = sg) /\ forall st, on_g st ->
  call T a' (f st) = on_ok (map_value (F s)) (call T a st) /\ forall v, call T a st = Ok v -> typed s v.
Proof.
  induction 1 as [c|s h h' Hs Hg Hk Hc|s h h' A IH|s a a' b b' A IHa B IHb|s t a a' b b' A IHa B IHb|t|rate ref Sr|r r' h w x c Hh Er].
  - split; [now left|]. intros st _. cbn. split; [reflexivity|discriminate].
  - split; [assumption|]. intros st [G L]. cbn [call]. split; [now apply Hc|]. intros v E. split.
    + destruct v; cbn; [exact I|]. now apply (Hg st).
    + destruct Hk as [->|Hk]; [now left|]. right. destruct v; [now elim (Hk st c)|]. eauto.
  - exact IH.
  - destruct IHa as [Hs IHa], IHb as [_ IHb]. split; [assumption|]. intros st On. cbn [call]. destruct (IHa st On) as [-> Ta], (IHb st On) as [-> Tb].
    destruct (call T a st) as [v|]; cbn [bind on_ok]; [|split; [reflexivity|discriminate]].
    destruct (call T b st) as [u|]; cbn [bind on_ok]; [|split; [reflexivity|discriminate]]. apply F_sum; auto.
  - destruct IHa as [Hs IHa], IHb as [Ht IHb]. split; [now apply sign_mul|]. intros st On. cbn [call]. destruct (IHa st On) as [-> Ta], (IHb st On) as [-> Tb].
    destruct (call T a st) as [v|]; cbn [bind on_ok]; [|split; [reflexivity|discriminate]].
    destruct (call T b st) as [u|]; cbn [bind on_ok]; [|split; [reflexivity|discriminate]]. apply F_prod; auto.
  - split; [now left|]. intros st On. cbn [call]. unfold switch_call. destruct (Hf st On) as [_ [-> _]].
    destruct (py_le (s_time st) t) as [b|]; cbn [bind on_ok]; [|split; [reflexivity|discriminate]]. split; [reflexivity|]. intros v [= <-]. split; [exact I|now left].
  - split; [now right|]. intros st On. cbn [call]. unfold relax_call. destruct (Hf st On) as [_ [_ [-> _]]].
    assert (SP : shaped nr nc (s_pv T st)) by (unfold s_pv; rewrite (proj1 On); apply (B_shape T g H)).
    cbn [fbin]. rewrite (same_shape_true nr nc ref (s_pv T st)), (same_shape_true nr nc (F sg ref) (F sg (s_pv T st))); try apply HF; auto. cbn [bind fbin on_ok map_value].
    split.
    + do 2 f_equal. rewrite (F_map2 Rminus sg sg sg) by (auto; intros; ring). apply F_mmap; auto using shaped_map2. intros; ring.
    + intros v [= <-]. split; [cbn; auto using shaped_mmap, shaped_map2|right; eauto].
  - split; [now right|]. intros st On. now apply F_orog.
Qed.
Lemma alike_gridded s a a' : alike g f F sg s a a' -> gridded_forcing g (call T a).
Proof.
  intros A st m G E. enough (Q : forall v, call T a st = Ok v -> fits nr nc v) by exact (Q _ E). clear m E.
  induction A as [c|s h h' Hs Hg Hk Hc|s h h' A IH|s a a' b b' A IHa B IHb|s t a a' b b' A IHa B IHb|t|rate ref Sr|r r' h w x c Hh Er]; intros v E; cbn [call] in E.
  - discriminate E.
  - destruct v; cbn; [exact I|]. now apply (Hg st).
  - now apply IH.
  - destruct (call T a st) as [y|]; cbn [bind] in E; [|discriminate E]. destruct (call T b st) as [z|]; cbn [bind] in E; [|discriminate E].
    destruct (fbin_fits Rplus nr nc y z) as [v' [E' [Fv _]]]; auto. rewrite E in E'. now injection E' as <-.
  - destruct (call T a st) as [y|]; cbn [bind] in E; [|discriminate E]. destruct (call T b st) as [z|]; cbn [bind] in E; [|discriminate E].
    destruct (fbin_fits Rmult nr nc y z) as [v' [E' [Fv _]]]; auto. rewrite E in E'. now injection E' as <-.
  - unfold switch_call in E. destruct (py_le (s_time st) t); [|discriminate E]. injection E as <-. exact I.
  - unfold relax_call in E. assert (SP : shaped nr nc (s_pv T st)) by (unfold s_pv; rewrite G; apply (B_shape T g H)).
    cbn [fbin] in E. rewrite (same_shape_true nr nc ref (s_pv T st)) in E by assumption. cbn [bind fbin] in E. injection E as <-. cbn; auto using shaped_mmap, shaped_map2.
  - destruct (orography r g) as [hh|e] eqn:Eo.
    + destruct (orog_call_get T g H (mkOrog r h w x c) st hh G Hh Eo) as [Fm [E' [Sf _]]]. rewrite E in E'. injection E' as ->. exact Sf.
    + unfold orog_call, orography_gradient in E. cbn [o_relief] in E. rewrite G, Eo in E. discriminate E.
Qed.
End Motion.

(** ** Rotation by several gridpoints *)
Lemma rotate_by_permutes m n : (0 < n)%nat -> permutes n (fun j => ((j + m) mod n)%nat).
Proof.
  intros Hn. split; [intros; apply Nat.mod_upper_bound; lia|]. intros i j Hi Hj E.
  pose proof (Nat.div_mod (i + m) n ltac:(lia)) as A. pose proof (Nat.div_mod (j + m) n ltac:(lia)) as B. rewrite E in A.
  set (q := ((i + m) / n)%nat) in *. set (q' := ((j + m) / n)%nat) in *. assert (q = q') by nia. nia.
Qed.
Lemma rotate_by_0 nr nc m : (0 < nc)%nat -> shaped nr nc m -> rotate_by 0 nc m = m.
Proof.
  intros Hn S. apply (mat_ext nr nc); [now apply relabel_shaped|assumption|]. intros i j Hi Hj. unfold rotate_by. rewrite (mget_relabel _ nr nc) by assumption.
  now rewrite Nat.add_0_r, Nat.mod_small.
Qed.
Lemma rotate_by_S n nr nc m : (0 < nc)%nat -> shaped nr nc m -> rotate_by (S n) nc m = rotate nc (rotate_by n nc m).
Proof.
  intros Hn S. unfold rotate_by, rotate. apply (mat_ext nr nc); try (repeat apply relabel_shaped; assumption). intros i j Hi Hj.
  pose proof (Nat.mod_upper_bound (j + 1) nc ltac:(lia)). rewrite !(mget_relabel _ nr nc) by auto using relabel_shaped. f_equal.
  rewrite Nat.add_mod_idemp_l by lia. f_equal. lia.
Qed.
Lemma turn_by_S n nt nlon x : turn_by (S n) nt nlon x = turn nt nlon (turn_by n nt nlon x).
Proof.
  unfold turn, turn_by. apply spec_ext; [now rewrite !weigh_length|]. rewrite weigh_length. intros k Hk. rewrite !coef_weigh by (rewrite ?weigh_length; assumption). cbn zeta.
  set (a := INR (order nt k) * (2 * PI / INR nlon)). rewrite S_INR. replace ((INR n + 1) * a) with (a + INR n * a) by ring. rewrite cos_plus, sin_plus.
  set (z := coef x k). destruct z as [zr zi]. unfold Cmult. cbn [fst snd]. apply pair_eqC; ring.
Qed.
Lemma turn_by_0 nt nlon x : turn_by 0 nt nlon x = x.
Proof.
  unfold turn_by. apply spec_ext; [now rewrite !weigh_length|]. rewrite weigh_length. intros k Hk. rewrite !coef_weigh by assumption. cbn zeta.
  cbn [INR]. rewrite Rmult_0_l, cos_0, sin_0. destruct (coef x k). unfold Cmult. cbn [fst snd]. apply pair_eqC; ring.
Qed.
Lemma rotated_by_S {K} n (s : state K) : rotated_by (S n) s = rotated (rotated_by n s).
Proof. unfold rotated, rotated_by. cbn [s_grid s_time s_pvs]. now rewrite turn_by_S. Qed.
Lemma rotated_by_0 {K} (s : state K) : rotated_by 0 s = s.
Proof. unfold rotated_by. rewrite turn_by_0. now destruct s. Qed.

Section RotationBy.
Context {K : numtype} (T : sphfam) (g : grid) (H : exact_on T g) (Hn : (0 < g_nlon g)%nat) (HR : rotates T g).
Notation nr := (g_nlat g).
Notation nc := (g_nlon g).
Notation N := (nspec (g_ntrunc g)).
Definition rwn (n : nat) (g : grid) (k : nat) : C := let a := INR n * (INR (order (g_ntrunc g) k) * (2 * PI / INR (g_nlon g))) in (cos a, sin a).
Lemma rotby_good n (s : state K) : s_grid s = g -> length (s_pvs s) = N -> s_grid (rotated_by n s) = g /\ length (s_pvs (rotated_by n s)) = N.
Proof. intros G L. unfold rotated_by, turn_by. cbn [s_grid s_pvs]. now rewrite weigh_length. Qed.
Lemma rotby_ana n m : shaped nr nc m -> to_spectral T g (rotate_by n nc m) = turn_by n (g_ntrunc g) nc (to_spectral T g m).
Proof.
  intros S. induction n as [|n IH]; [now rewrite (rotate_by_0 nr nc), turn_by_0|].
  rewrite (rotate_by_S n nr nc), turn_by_S, <- IH by assumption. apply (ro_analysis _ _ _ _ HR). now apply relabel_shaped.
Qed.
Lemma rotby_fields n (s : state K) : s_grid s = g -> length (s_pvs s) = N ->
  s_pv T (rotated_by n s) = rotate_by n nc (s_pv T s) /\ s_u T (rotated_by n s) = rotate_by n nc (s_u T s) /\ s_v T (rotated_by n s) = rotate_by n nc (s_v T s).
Proof.
  intros G L. assert (SP : shaped nr nc (s_pv T s)) by (unfold s_pv; rewrite G; apply (B_shape T g H)). destruct (uv_shaped T g H s G) as [SU SV].
  induction n as [|n IH]; [now rewrite rotated_by_0, !(rotate_by_0 nr nc)|].
  destruct IH as [E1 [E2 E3]]. rewrite rotated_by_S, !(rotate_by_S n nr nc), <- E1, <- E2, <- E3 by assumption. destruct (rotby_good n s G L) as [G' L'].
  unfold s_u, s_v. rewrite (rot_wind T g H Hn HR _ G' L'). split; [|split; reflexivity]. unfold s_pv at 1. unfold rotated. cbn [s_grid s_pvs]. unfold s_pv. rewrite G'. now apply (ro_synthesis _ _ _ _ HR).
Qed.
Lemma rotby_flux n (s : state K) : s_grid s = g -> length (s_pvs s) = N ->
  s_pv_flux_spectral T (rotated_by n s) = turn_by n (g_ntrunc g) nc (s_pv_flux_spectral T s).
Proof.
  intros G L. induction n as [|n IH]; [now rewrite rotated_by_0, turn_by_0|].
  rewrite rotated_by_S, turn_by_S, <- IH. destruct (rotby_good n s G L) as [G' L']. now apply (rot_flux T g H Hn HR).
Qed.
Lemma rotby_run n (M M' : bmodel K) fuel init dt tend se : corresponding g (rotated_by n) (rotate_by n nc) M M' -> s_grid init = g -> length (s_pvs init) = N ->
  run T M' fuel (rotated_by n init) dt tend se = map_run (rotated_by n) (run T M fuel init dt tend se).
Proof.
  intros HM G L. apply (act_run T g H (rwn n) (rotate_by n nc)); [apply rotby_ana|exact (rotby_flux n)|exact HM|now split].
Qed.
Lemma rotby_gradient n h : gradient_rotates T g -> shaped nr nc h ->
  gradient T g (rotate_by n nc h) = (rotate_by n nc (fst (gradient T g h)), rotate_by n nc (snd (gradient T g h))).
Proof.
  intros HG S. pose proof (et_grad_shape _ _ _ _ H (to_spectral T g h)) as [SX SY]. unfold gradient. induction n as [|n IH].
  - rewrite !(rotate_by_0 nr nc) by assumption. now destruct (sh_getgrad _ _).
  - rewrite rotby_ana in IH |- * by assumption. rewrite turn_by_S, HG by (unfold turn_by; rewrite weigh_length; apply (A_len T g H)).
    rewrite IH. cbn [fst snd]. now rewrite !(rotate_by_S n nr nc) by assumption.
Qed.
Lemma rotby_call n s (a a' : obj K) : gradient_rotates T g -> alike g (rotated_by n) (fun _ => rotate_by n nc) 1 s a a' ->
  s = 1 /\ forall st, s_grid st = g /\ length (s_pvs st) = N ->
  call T a' (rotated_by n st) = on_ok (map_value (rotate_by n nc)) (call T a st) /\ forall v, call T a st = Ok v -> fits nr nc v.
Proof.
  intros HG A. destruct (alike_call (K := K) T g H (rotated_by n) (fun _ => rotate_by n nc) 1 (fun i => i) (fun j => ((j + n) mod nc)%nat)) with (s := s) (a := a) (a' := a') as [Hs HC]; auto.
  - now apply rotate_by_permutes.
  - intros t m Ht S. split; [now apply relabel_shaped|]. intros i j Hi Hj. unfold rotate_by. rewrite (mget_relabel _ nr nc) by assumption. destruct Ht as [->| ->]; ring.
  - intros st [G L]. destruct (rotby_good n st G L) as [G' _]. split; [exact G'|]. split; [reflexivity|]. now apply rotby_fields.
  - intros h S. now apply rotby_gradient.
  - intros i Hi. split; [ring|reflexivity].
  - split; [tauto|]. intros st On. destruct (HC st On) as [E Ty]. split; [exact E|]. intros v Ev. apply (Ty v Ev).
Qed.
End RotationBy.

Section ReflectionForcing.
Context {K : numtype} (T : sphfam) (g : grid) (H : exact_on T g) (Hn : (1 < g_nlat g)%nat) (HR : reflects T g).
Notation nr := (g_nlat g).
Notation nc := (g_nlon g).
Notation N := (nspec (g_ntrunc g)).
Lemma lat_reflected i : (i < nr)%nat -> nth (nr - 1 - i) (g_lat g) 0 = - nth i (g_lat g) 0.
Proof.
  intros Hi. rewrite !lat_nth by lia. rewrite (minus_INR (nr - 1) i) by lia. assert (INR (nr - 1) <> 0) by (apply not_0_INR; lia). field. assumption.
Qed.
Lemma refl_call s (a a' : obj K) : gradient_reflects T g -> alike g reflected mirror (-1) s a a' ->
  (s = 1 \/ s = -1) /\ forall st, s_grid st = g /\ length (s_pvs st) = N ->
  call T a' (reflected st) = on_ok (map_value (mirror s)) (call T a st) /\ forall v, call T a st = Ok v -> typed g s v.
Proof.
  intros HG A. apply (alike_call (K := K) T g H reflected mirror (-1) (fun i => (nr - 1 - i)%nat) (fun j => j)); auto.
  - intros; lia.
  - split; auto.
  - intros t m _ S. split; [now apply shaped_mirror|]. intros i j Hi Hj. now apply mget_mirror with (nc := nc).
  - intros st [G L]. split; [exact G|]. split; [reflexivity|]. unfold s_u, s_v. rewrite (refl_wind T g H Hn HR st G L). split; [|split; reflexivity].
    unfold s_pv, reflected. cbn [s_grid s_pvs]. rewrite G. now apply (re_synthesis _ _ _ _ HR).
  - intros h S. unfold gradient, to_spectral. rewrite (re_analysis _ _ _ _ HR) by assumption. rewrite HG by apply (A_len T g H). reflexivity.
  - intros i Hi. rewrite lat_reflected by assumption. unfold deg2rad. set (y := nth i (g_lat g) 0).
    replace (- y * PI / 180) with (- (y * PI / 180)) by (unfold Rdiv; ring) || idtac.
    match goal with |- context [sin ?x] => replace x with (- (deg2rad y)) by (unfold deg2rad; field) end.
    match goal with |- context [cos ?x] => replace x with (- (deg2rad y)) by (unfold deg2rad; field) end.
    rewrite sin_neg, cos_neg. unfold deg2rad. split; [ring|reflexivity].
Qed.
End ReflectionForcing.

(** ** Fields that repeat *)
Lemma repeats_rotate n nr nc m : shaped nr nc m -> (repeats n nr nc m <-> rotate_by n nc m = m).
Proof.
  intros S. split; intros E.
  - apply (mat_ext nr nc); [now apply relabel_shaped|assumption|]. intros i j Hi Hj. unfold rotate_by. rewrite (mget_relabel _ nr nc) by assumption. now apply E.
  - intros i j Hi Hj. rewrite <- E at 2. unfold rotate_by. now rewrite (mget_relabel _ nr nc).
Qed.
Lemma cos_turns x (m : nat) : cos (x + INR m * (2 * PI)) = cos x.
Proof. replace (x + INR m * (2 * PI)) with (x + 2 * INR m * PI) by ring. apply cos_period. Qed.
Lemma sine_repeats g height clat slat k n q h : (k * n = q * g_nlon g)%nat -> (0 < g_nlon g)%nat ->
  orography (RSine height clat slat (INR k)) g = Ok h -> repeats n (g_nlat g) (g_nlon g) h.
Proof.
  intros Hk Hn E i j Hi Hj. destruct (sine_mountain_get _ _ _ _ _ _ E) as [_ G].
  pose proof (Nat.mod_upper_bound (j + n) (g_nlon g) ltac:(lia)) as HM. rewrite !G by assumption. do 4 f_equal. rewrite !lon_nth by assumption.
  pose proof (Nat.div_mod (j + n) (g_nlon g) ltac:(lia)) as D. set (d := ((j + n) / g_nlon g)%nat) in *. set (m := ((j + n) mod g_nlon g)%nat) in *.
  assert (NZ : INR (g_nlon g) <> 0) by (apply not_0_INR; lia).
  assert (D' : INR j + INR n = INR (g_nlon g) * INR d + INR m) by (rewrite <- !plus_INR, <- mult_INR, <- plus_INR; now f_equal).
  assert (K' : INR k * INR n = INR q * INR (g_nlon g)) by (rewrite <- !mult_INR; now f_equal).
  unfold deg2rad. rewrite <- (cos_turns _ (k * d)), <- (cos_turns (INR k * _) q), !mult_INR. f_equal.
  assert (Em : INR m = INR j + INR n - INR (g_nlon g) * INR d) by lra. assert (Eq : INR q = INR k * INR n / INR (g_nlon g)) by (rewrite K'; field; assumption).
  rewrite Em, Eq. field. assumption.
Qed.
Lemma equatorial_symmetric g r h : (1 < g_nlat g)%nat ->
  (exists a b s t, r = RGauss a b 0 s t) \/ (exists a s k, r = RSine a 0 s k) -> orography r g = Ok h -> mirror 1 h = h.
Proof.
  intros Hn Hr E. assert (S := orography_shaped g r h E). apply (mat_ext (g_nlat g) (g_nlon g)); [now apply shaped_mirror|assumption|]. intros i j Hi Hj.
  rewrite (mget_mirror _ (g_nlat g) (g_nlon g)), Rmult_1_l by assumption.
  assert (Q : forall t, gauss (nth (g_nlat g - 1 - i) (g_lat g) 0) 0 t = gauss (nth i (g_lat g) 0) 0 t).
  { intros t. rewrite lat_reflected by assumption. unfold gauss. do 3 f_equal. ring. }
  destruct Hr as [(a & b & s & t & ->)|(a & s & k & ->)].
  - destruct (gauss_mountain_get _ _ _ _ _ _ _ E) as [_ G]. rewrite !G by (auto; lia). now rewrite Q.
  - destruct (sine_mountain_get _ _ _ _ _ _ E) as [_ G]. rewrite !G by (auto; lia). now rewrite Q.
Qed.
Lemma field_relief g h : (0 < g_nlat g)%nat -> (0 < g_nlon g)%nat -> shaped (g_nlat g) (g_nlon g) h -> orography (RField (g_lon g) (g_lat g) h) g = Ok h.
Proof.
  intros A B S. cbn. destruct (interp_orography_ok (g_lon g) (g_lat g) h g) as [m E]; rewrite ?lon_length, ?lat_length; auto.
  rewrite E. f_equal. now apply (orography_same_grid h g).
Qed.

(** ** The transform of degree 1 *)
Lemma d1_gradient_rotates rs om : gradient_rotates d1_family (d1_grid rs om).
Proof.
  intros x L. unfold sph, d1_family, d1_grid. cbn [g_nlat g_nlon g_rsphere g_ntrunc sh_getgrad] in *. len3 x L. rewrite d1_turn. unfold d1_getgrad. matrices.
Qed.
Lemma d1_gradient_reflects rs om : gradient_reflects d1_family (d1_grid rs om).
Proof.
  intros s x L. unfold sph, d1_family, d1_grid. cbn [g_nlat g_nlon g_rsphere g_ntrunc sh_getgrad] in *. len3 x L. rewrite d1_flip. unfold d1_getgrad. matrices.
Qed.
