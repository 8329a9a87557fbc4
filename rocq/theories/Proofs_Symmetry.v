(** Integrations commute with rotations and reflections. *)
From Coq Require Export String.
From Verif Require Import Base Model_Grid Model_Time Model_Spectral Model_State Model_Run Spec_Grid Spec_Spectral Spec_Instance Spec_State Spec_Run Spec_Sym Spec_Symmetry.
From Verif Require Import Proofs_Base Proofs_Grid Proofs_Spectral Proofs_Instance Proofs_State Proofs_Step Proofs_Run Proofs_Sym.
From Coquelicot Require Import Complex.
From Coq Require Import List Lia Lra.
Import ListNotations.
Open Scope R_scope.

Lemma weigh_length w x : length (weigh w x) = length x.
Proof. unfold weigh. now rewrite map_length, seq_length. Qed.
Lemma coef_weigh w x k : (k < length x)%nat -> coef (weigh w x) k = (w k * coef x k)%C.
Proof. intros H. change (weigh w x) with (tab (length x) (fun k => Cmult (w k) (coef x k))). unfold coef at 1. now rewrite tab_nth. Qed.
Ltac spec_eq := apply spec_ext; [unfold sadd, ssub, solve_diffusion_spectral; rewrite ?weigh_length, ?sscale_length, ?sopp_length, ?map2_length, ?weigh_length, ?sscale_length, ?sopp_length; lia|].
Ltac slen := unfold sadd, ssub, sscale, sopp; repeat first [rewrite map2_length | rewrite map_length | rewrite weigh_length]; lia.
Lemma weigh_add w x y : length x = length y -> weigh w (sadd x y) = sadd (weigh w x) (weigh w y).
Proof.
  intros L. spec_eq. rewrite weigh_length, sadd_length by assumption. intros k Hk.
  rewrite coef_weigh by (rewrite sadd_length; assumption). rewrite !coef_sadd by (rewrite ?weigh_length; assumption). rewrite !coef_weigh by lia. ring.
Qed.
Lemma weigh_sub w x y : length x = length y -> weigh w (ssub x y) = ssub (weigh w x) (weigh w y).
Proof.
  intros L. spec_eq. rewrite weigh_length, ssub_length by assumption. intros k Hk.
  rewrite coef_weigh by (rewrite ssub_length; assumption). rewrite !coef_ssub by (rewrite ?weigh_length; assumption). rewrite !coef_weigh by lia. ring.
Qed.
Lemma weigh_scale w c x : weigh w (sscale c x) = sscale c (weigh w x).
Proof.
  spec_eq. rewrite weigh_length, sscale_length. intros k Hk.
  rewrite coef_weigh by now rewrite sscale_length. rewrite !coef_sscale by now rewrite ?weigh_length. rewrite coef_weigh by assumption. ring.
Qed.
Lemma weigh_opp w x : weigh w (sopp x) = sopp (weigh w x).
Proof.
  spec_eq. rewrite weigh_length, sopp_length. intros k Hk.
  rewrite coef_weigh by now rewrite sopp_length. rewrite !coef_sopp by now rewrite ?weigh_length. rewrite coef_weigh by assumption. ring.
Qed.
Lemma weigh_zeros w n : weigh w (repeat (RtoC 0) n) = repeat (RtoC 0) n.
Proof.
  apply spec_ext; [apply weigh_length|]. rewrite weigh_length, repeat_length. intros k Hk. rewrite coef_weigh by now rewrite repeat_length. rewrite !coef_zero. ring.
Qed.
Lemma weigh_diffusion w g x c d o : length x = nspec (g_ntrunc g) ->
  solve_diffusion_spectral g (weigh w x) c d o = weigh w (solve_diffusion_spectral g x c d o).
Proof.
  intros L. pose proof (eig_length g) as E. spec_eq. unfold solve_diffusion_spectral at 1. rewrite map2_length, weigh_length. intros k Hk.
  rewrite coef_weigh by (rewrite diffusion_length; lia). unfold solve_diffusion_spectral. rewrite !coef_map2R by (rewrite ?weigh_length; lia).
  rewrite coef_weigh by lia. unfold Cdiv. ring.
Qed.

(** ** A symmetry acting on coefficients through weights *)
Section Symmetry.
Context {K : numtype} (T : sphfam) (g : grid) (H : exact_on T g) (wf : grid -> nat -> C) (F : mat -> mat).
Notation N := (nspec (g_ntrunc g)).
Notation w := (wf g).
Definition act (s : state K) : state K := mkState (s_grid s) (s_time s) (weigh (wf (s_grid s)) (s_pvs s)).
Hypothesis Hana : forall f, shaped (g_nlat g) (g_nlon g) f -> to_spectral T g (F f) = weigh w (to_spectral T g f).
Hypothesis Hflux : forall s : state K, s_grid s = g -> length (s_pvs s) = N -> s_pv_flux_spectral T (act s) = weigh w (s_pv_flux_spectral T s).
Variables (M M' : bmodel K).
Hypothesis HM : corresponding g act F M M'.
Definition good (s : state K) : Prop := s_grid s = g /\ length (s_pvs s) = N.

Lemma act_tendency s : good s -> pv_tendency_spectral T M' (act s) = on_ok (weigh w) (pv_tendency_spectral T M s).
Proof.
  intros [G L]. unfold pv_tendency_spectral. rewrite Hflux by assumption. destruct HM as (_ & _ & _ & R).
  pose proof (flux_length T g H s G) as LF.
  destruct (m_rhs M) as [h|], (m_rhs M') as [h'|]; try contradiction.
  - destruct R as [RG R]. rewrite (R s G L). destruct (h s) as [[c|m]|] eqn:E; try reflexivity. cbn [on_ok map_value bind].
    f_equal. cbn [s_grid act]. rewrite G, Hana by now apply (RG s). rewrite weigh_add, weigh_opp; [reflexivity|].
    rewrite sopp_length, LF. symmetry. apply (A_len T g H).
  - cbn [on_ok]. now rewrite weigh_opp.
Qed.
Lemma tendency_length s x : good s -> pv_tendency_spectral T M s = Ok x -> length x = N.
Proof.
  intros [G L]. unfold pv_tendency_spectral. pose proof (flux_length T g H s G) as LF. destruct (m_rhs M) as [h|].
  - destruct (h s) as [[c|m]|]; cbn [bind]; try discriminate. intros [= <-]. rewrite sadd_length; rewrite sopp_length; [assumption|]. rewrite LF, G. symmetry. apply (A_len T g H).
  - intros [= <-]. now rewrite sopp_length.
Qed.
Lemma act_diffusion d x : length x = N -> apply_diffusion T M' g d (weigh w x) = weigh w (apply_diffusion T M g d x).
Proof.
  intros L. destruct HM as (Eo & Ec & B & _). unfold apply_diffusion. rewrite <- Eo, <- Ec. destruct (m_bg M) as [a|], (m_bg M') as [b|]; try contradiction.
  - destruct B as [Sa ->]. rewrite Hana by assumption. pose proof (A_len T g H a) as LA.
    rewrite <- weigh_sub by lia. rewrite weigh_diffusion by (rewrite ssub_length; lia). rewrite weigh_add; [reflexivity|].
    rewrite diffusion_length; [now symmetry|]. rewrite ssub_length; lia.
  - now apply weigh_diffusion.
Qed.
Lemma act_euler s dt : good s -> euler T M' (act s) dt = on_ok act (euler T M s dt).
Proof.
  intros G. unfold euler. destruct (to_seconds dt) as [dts|]; [|reflexivity]. cbn [bind]. rewrite act_tendency by assumption.
  destruct (pv_tendency_spectral T M s) as [x|] eqn:E; [|reflexivity]. cbn [on_ok bind act s_time s_grid s_pvs]. apply (tendency_length s x G) in E. destruct G as [G L].
  destruct (py_add (s_time s) dt); [|reflexivity]. cbn [on_ok bind]. f_equal. unfold act. cbn [s_grid s_time s_pvs]. f_equal.
  rewrite G, <- weigh_scale, <- weigh_add, act_diffusion; [reflexivity| |]; slen.
Qed.
Lemma euler_good s dt e : good s -> euler T M s dt = Ok e -> good e.
Proof.
  intros G. unfold euler. destruct (to_seconds dt) as [dts|]; [|discriminate]. cbn [bind].
  destruct (pv_tendency_spectral T M s) as [x|] eqn:E; [|discriminate]. cbn [bind]. apply (tendency_length s x G) in E. destruct G as [G L].
  destruct (py_add (s_time s) dt); [|discriminate]. cbn [bind]. intros [= <-]. split; [exact G|]. cbn [s_pvs]. rewrite G.
  apply (apply_diffusion_length T g H). slen.
Qed.
Lemma act_leapfrog a b nu : good a -> good b -> leapfrog T M' (act a) (act b) nu = on_ok (fun p => (act (fst p), act (snd p))) (leapfrog T M a b nu).
Proof.
  intros Ga Gb. unfold leapfrog. cbn [act s_time]. destruct (py_sub (s_time b) (s_time a)) as [dt|]; [|reflexivity]. cbn [bind].
  destruct (to_seconds dt) as [dts|]; [|reflexivity]. cbn [bind]. change (mkState (s_grid b) (s_time b) (weigh (wf (s_grid b)) (s_pvs b))) with (act b). rewrite act_tendency by assumption.
  destruct (pv_tendency_spectral T M b) as [x|] eqn:E; [|reflexivity]. cbn [on_ok bind act s_time s_grid s_pvs]. apply (tendency_length b x Gb) in E. destruct Ga as [Ga La], Gb as [Gb Lb].
  destruct (py_add (s_time b) dt); [|reflexivity]. cbn [on_ok bind fst snd]. rewrite Ga, Gb.
  rewrite <- (weigh_scale w (2 * dts)), <- (weigh_add w (s_pvs a) (sscale (2 * dts) x)) by (rewrite sscale_length; lia). rewrite act_diffusion by (slen).
  assert (LD : length (apply_diffusion T M g (2 * dts) (sadd (s_pvs a) (sscale (2 * dts) x))) = N).
  { apply (apply_diffusion_length T g H). slen. }
  set (D := apply_diffusion T M g (2 * dts) (sadd (s_pvs a) (sscale (2 * dts) x))) in *.
  rewrite <- weigh_add, <- !weigh_scale, <- weigh_add; [reflexivity| |]; slen.
Qed.
Lemma leapfrog_good a b nu a' b' : good a -> good b -> leapfrog T M a b nu = Ok (a', b') -> good a' /\ good b'.
Proof.
  intros Ga Gb. unfold leapfrog. destruct (py_sub (s_time b) (s_time a)) as [dt|]; [|discriminate]. cbn [bind].
  destruct (to_seconds dt) as [dts|]; [|discriminate]. cbn [bind].
  destruct (pv_tendency_spectral T M b) as [x|] eqn:E; [|discriminate]. cbn [bind]. apply (tendency_length b x Gb) in E. destruct Ga as [Ga La], Gb as [Gb Lb].
  destruct (py_add (s_time b) dt); [|discriminate]. cbn [bind]. intros [= <- <-].
  assert (LD : length (apply_diffusion T M g (2 * dts) (sadd (s_pvs a) (sscale (2 * dts) x))) = N).
  { apply (apply_diffusion_length T g H). slen. }
  unfold good. cbn [s_grid s_pvs]. rewrite Gb.
  set (D := apply_diffusion T M g (2 * dts) (sadd (s_pvs a) (sscale (2 * dts) x))) in *.
  repeat split; [|exact LD]. slen.
Qed.
Lemma act_loop tend se fuel : forall st st_new states ts, good st -> good st_new ->
  run_loop T M' fuel tend se (act st) (act st_new) (map act states) ts
  = on_ok (fun p => (act (fst p), map act (snd p))) (run_loop T M fuel tend se st st_new states ts).
Proof.
  induction fuel as [|fuel IH]; intros st st_new states ts G1 G2; [reflexivity|]. cbn [run_loop]. cbn [act s_time].
  destruct (py_lt (s_time st) tend) as [[|]|]; [|reflexivity..]. cbn [bind].
  change (mkState (s_grid st) (s_time st) (weigh (wf (s_grid st)) (s_pvs st))) with (act st). change (mkState (s_grid st_new) (s_time st_new) (weigh (wf (s_grid st_new)) (s_pvs st_new))) with (act st_new).
  rewrite act_leapfrog by assumption. destruct (leapfrog T M st st_new default_nu) as [[a b]|] eqn:E; [|reflexivity]. cbn [on_ok bind fst snd].
  destruct (leapfrog_good _ _ _ _ _ G1 G2 E) as [Ga Gb].
  destruct (py_lt (VNum (n_zero K)) se) as [[|]|]; [|now apply IH|reflexivity]. cbn [bind]. change (s_time (act a)) with (s_time a).
  destruct (py_le ts (s_time a)) as [[|]|]; [|now apply IH|reflexivity]. cbn [bind]. destruct (py_add ts se) as [ts'|]; [|reflexivity]. cbn [bind].
  rewrite <- IH by assumption. f_equal. symmetry. apply map_app.
Qed.
Lemma act_statelist l : statelist_of (map act l) = on_ok (map act) (statelist_of l).
Proof.
  destruct l as [|s l]; [reflexivity|]. unfold statelist_of. cbn [map]. change (act s :: map act l) with (map act (s :: l)).
  replace (forallb (fun s' => grid_eqb (s_grid (act s)) (s_grid s')) (map act (s :: l))) with (forallb (fun s' => grid_eqb (s_grid s) (s_grid s')) (s :: l)).
  - unfold passert. now destruct (forallb _ (s :: l)).
  - generalize (s :: l). intros l'. induction l' as [|x l' IH]; [reflexivity|]. cbn [map forallb]. now rewrite IH.
Qed.
Lemma act_run fuel init dt tend se : good init -> run T M' fuel (act init) dt tend se = map_run act (run T M fuel init dt tend se).
Proof.
  intros G. unfold run. change (s_time (act init)) with (s_time init). destruct (py_lt tend (s_time init)) as [[|]|]; [reflexivity| |reflexivity]. cbn [bind].
  rewrite act_euler by assumption. destruct (euler T M init dt) as [e|] eqn:E; [|reflexivity]. cbn [on_ok bind].
  pose proof (euler_good _ _ _ G E) as Ge. pose proof (act_loop tend se fuel init e (cons init nil) se G Ge) as L. cbn [map] in L. rewrite L.
  destruct (run_loop T M fuel tend se init e (init :: nil) se) as [[st l]|]; [|reflexivity]. cbn [on_ok bind fst snd]. rewrite act_statelist.
  now destruct (statelist_of l).
Qed.
Lemma steps_good init dt n s new : good init -> steps T M init dt n = Ok (s, new) -> good s /\ good new.
Proof.
  intros G. revert s new. induction n as [|n IH]; intros s new HS.
  - cbn [steps] in HS. inv_bind HS. injection HS as <- <-. split; [exact G|]. exact (euler_good _ _ _ G E).
  - apply steps_prev in HS. destruct HS as [[a b] [HS HF]]. destruct (IH a b HS) as [H1 H2]. cbn [fst snd] in HF. exact (leapfrog_good _ _ _ _ _ H1 H2 HF).
Qed.
Lemma run_good fuel init dt tend se f r : good init -> run T M fuel init dt tend se = Ok (f, r) -> Forall good (f :: items r).
Proof.
  intros G R. apply run_sound in R. destruct R as [[_ [-> ->]]|[_ [N' [HT [_ [_ ->]]]]]].
  - repeat (constructor; [exact G|]). constructor.
  - constructor.
    + destruct HT as [new HT]. exact (proj1 (steps_good _ _ _ _ _ G HT)).
    + cbn [items]. constructor; [exact G|]. apply Forall_map. apply Forall_forall. intros k Hk. apply saved_range in Hk.
      destruct HT as [new HT]. destruct (steps_le _ _ _ _ _ k _ HT ltac:(lia)) as [[a b] Hab].
      rewrite (at_step_eq _ _ _ _ _ _ _ Hab). exact (proj1 (steps_good _ _ _ _ _ G Hab)).
Qed.
End Symmetry.

(** ** Rotation *)
Lemma rotate_permutes n : (0 < n)%nat -> permutes n (fun j => ((j + 1) mod n)%nat).
Proof.
  intros Hn. split; [intros; apply Nat.mod_upper_bound; lia|]. intros i j Hi Hj E.
  destruct (Nat.eq_dec (i + 1) n) as [Ei|Ei], (Nat.eq_dec (j + 1) n) as [Ej|Ej].
  - lia.
  - rewrite Ei, Nat.mod_same, Nat.mod_small in E; lia.
  - rewrite Ej, Nat.mod_same, Nat.mod_small in E; lia.
  - rewrite !Nat.mod_small in E; lia.
Qed.
Lemma mget_relabel p nr nc f i j : shaped nr nc f -> (i < nr)%nat -> (j < nc)%nat -> mget (relabel 0 p f) i j = mget f i (p j).
Proof.
  intros [L Fr] Hi Hj. unfold mget, relabel. rewrite nth_map_lt with (d := nil) by lia. apply reorder_nth.
  rewrite Forall_forall in Fr. rewrite (Fr (nth i f nil)); [assumption|]. apply nth_In. lia.
Qed.
Lemma relabel_uniform p nr nc f : permutes nc p -> zonally_uniform nr nc f -> relabel 0 p f = f.
Proof.
  intros P [S U]. apply (mat_ext nr nc); [now apply relabel_shaped|assumption|]. intros i j Hi Hj.
  rewrite (mget_relabel p nr nc) by assumption. rewrite (U i j) by assumption. apply U; [assumption|]. now apply P.
Qed.
Lemma relabel_mmul p nr nc f h : shaped nr nc f -> shaped nr nc h -> permutes nc p -> relabel 0 p (mmul f h) = mmul (relabel 0 p f) (relabel 0 p h).
Proof.
  intros Sf Sh P. apply (mat_ext nr nc); [apply relabel_shaped; now apply shaped_mmul|apply shaped_mmul; now apply relabel_shaped|].
  intros i j Hi Hj. rewrite (mget_relabel p nr nc), !(mget_mmul nr nc), !(mget_relabel p nr nc); auto using relabel_shaped, shaped_mmul. now apply P.
Qed.
Lemma fcor2_uniform g : (0 < g_nlon g)%nat -> zonally_uniform (g_nlat g) (g_nlon g) (g_fcor2 g).
Proof. intros Hn. split; [apply fcor2_shaped|]. intros i j Hi Hj. now rewrite !fcor2_grid by assumption. Qed.

Section Rotation.
Context {K : numtype} (T : sphfam) (g : grid) (H : exact_on T g) (Hn : (0 < g_nlon g)%nat) (HR : rotates T g).
Notation N := (nspec (g_ntrunc g)).
Definition rw (g : grid) (k : nat) : C := let a := INR (order (g_ntrunc g) k) * (2 * PI / INR (g_nlon g)) in (cos a, sin a).
Notation w := (rw g).
Notation rot := (rotate (g_nlon g)).
Lemma rot_ana f : shaped (g_nlat g) (g_nlon g) f -> to_spectral T g (rot f) = weigh w (to_spectral T g f).
Proof. apply (ro_analysis _ _ _ _ HR). Qed.
Lemma rot_syn x : length x = N -> to_grid T g (weigh w x) = rot (to_grid T g x).
Proof. apply (ro_synthesis _ _ _ _ HR). Qed.
Lemma rot_fcor : weigh w (fcor2_spectral T g) = fcor2_spectral T g.
Proof.
  unfold fcor2_spectral. rewrite <- rot_ana by apply fcor2_shaped. f_equal. apply (relabel_uniform _ (g_nlat g) (g_nlon g)); [now apply rotate_permutes|now apply fcor2_uniform].
Qed.
Lemma rot_wind (s : state K) : s_grid s = g -> length (s_pvs s) = N ->
  s_invert_pv T (rotated s) = (rot (fst (s_invert_pv T s)), rot (snd (s_invert_pv T s))).
Proof.
  intros G L. unfold s_invert_pv, s_vorticity_spectral. unfold rotated, turn; cbn [s_grid s_pvs]; fold (rw (s_grid s)). rewrite G.
  pose proof (F2_len T g H) as LF. rewrite <- rot_fcor at 1 2. rewrite <- weigh_sub by lia.
  set (vo := ssub (s_pvs s) (fcor2_spectral T g)). assert (LV : length vo = N) by (unfold vo; rewrite ssub_length; lia).
  rewrite !szeros_repeat, weigh_length, LV. unfold wind. cbn [as_spectral].
  rewrite <- (weigh_zeros w N) at 1. apply (ro_wind _ _ _ _ HR); [assumption|apply repeat_length].
Qed.
Lemma rot_flux (s : state K) : s_grid s = g -> length (s_pvs s) = N -> s_pv_flux_spectral T (rotated s) = weigh w (s_pv_flux_spectral T s).
Proof.
  intros G L. unfold s_pv_flux_spectral, s_u, s_v. rewrite rot_wind by assumption. unfold s_pv. unfold rotated, turn; cbn [s_grid s_pvs fst snd]; fold (rw (s_grid s)). rewrite G, rot_syn by assumption.
  assert (SP := B_shape T g H (s_pvs s)). assert (SW : shaped (g_nlat g) (g_nlon g) (fst (s_invert_pv T s)) /\ shaped (g_nlat g) (g_nlon g) (snd (s_invert_pv T s))).
  { unfold s_invert_pv, wind. rewrite G. apply (et_wind_shape _ _ _ _ H). }
  destruct SW as [SU SV]. unfold rotate. rewrite <- !(relabel_mmul _ (g_nlat g) (g_nlon g)) by (auto using rotate_permutes).
  unfold divergence_spectral, vorticity_divergence_spectral.
  pose proof (ro_vrtdiv _ _ _ _ HR _ _ (shaped_mmul _ _ _ _ SP SU) (shaped_mmul _ _ _ _ SP SV)) as E. unfold rotate in E. rewrite E. reflexivity.
Qed.
Lemma rot_run (M M' : bmodel K) fuel init dt tend se : corresponding g rotated rot M M' -> s_grid init = g -> length (s_pvs init) = N ->
  run T M' fuel (rotated init) dt tend se = map_run rotated (run T M fuel init dt tend se).
Proof.
  intros HM G L. apply (act_run T g H rw rot); [apply rot_ana|exact rot_flux|exact HM|now split].
Qed.
End Rotation.

(** ** Reflection in the equator *)
Lemma mget_mirror s nr nc f i j : shaped nr nc f -> (i < nr)%nat -> (j < nc)%nat -> mget (mirror s f) i j = s * mget f (nr - 1 - i) j.
Proof.
  intros S Hi Hj. unfold mirror. assert (SR : shaped nr nc (rev f)).
  { destruct S as [L Fr]. split; [now rewrite rev_length|]. apply Forall_rev. exact Fr. }
  rewrite (mget_mscale nr nc) by assumption. f_equal. unfold mget. rewrite rev_nth by (rewrite (proj1 S); assumption). rewrite (proj1 S). now replace (nr - Datatypes.S i)%nat with (nr - 1 - i)%nat by lia.
Qed.
Lemma shaped_mirror s nr nc f : shaped nr nc f -> shaped nr nc (mirror s f).
Proof. intros [L Fr]. unfold mirror. apply shaped_mscale. split; [now rewrite rev_length|]. apply Forall_rev. exact Fr. Qed.
Lemma mirror_mmul a b nr nc f h : shaped nr nc f -> shaped nr nc h -> mmul (mirror a f) (mirror b h) = mirror (a * b) (mmul f h).
Proof.
  intros Sf Sh. apply (mat_ext nr nc); [apply shaped_mmul; now apply shaped_mirror|apply shaped_mirror; now apply shaped_mmul|].
  intros i j Hi Hj. rewrite (mget_mmul nr nc), !(mget_mirror _ nr nc) by auto using shaped_mmul, shaped_mirror. rewrite (mget_mmul nr nc) by (auto; lia). ring.
Qed.
Lemma fcor2_antisymmetric g : (1 < g_nlat g)%nat -> mirror (-1) (g_fcor2 g) = g_fcor2 g.
Proof.
  intros Hn. apply (mat_ext (g_nlat g) (g_nlon g)); [apply shaped_mirror|..]; try apply fcor2_shaped. intros i j Hi Hj.
  rewrite (mget_mirror _ (g_nlat g) (g_nlon g)) by (auto; apply fcor2_shaped). rewrite !fcor2_grid by lia. rewrite !lat_nth by lia.
  assert (E : 90 - INR (g_nlat g - 1 - i) * (180 / INR (g_nlat g - 1)) = - (90 - INR i * (180 / INR (g_nlat g - 1)))).
  { rewrite (minus_INR (g_nlat g - 1) i) by lia. assert (INR (g_nlat g - 1) <> 0) by (apply not_0_INR; lia). field. assumption. }
  unfold coriolis.
  match goal with |- context [sin (deg2rad ?a)] => replace a with (- (90 - INR i * (180 / INR (g_nlat g - 1)))) by lra end.
  unfold deg2rad. match goal with |- _ = 2 * _ * sin ?b => set (B := b) end.
  match goal with |- context [sin ?a] => replace a with (- B) by (unfold B; lra) end. rewrite sin_neg. ring.
Qed.

Section Reflection.
Context {K : numtype} (T : sphfam) (g : grid) (H : exact_on T g) (Hn : (1 < g_nlat g)%nat) (HR : reflects T g).
Notation N := (nspec (g_ntrunc g)).
Definition fw (g : grid) (k : nat) : C := RtoC (-1 * (-1) ^ (order (g_ntrunc g) k + degree (g_ntrunc g) k)).
Notation w := (fw g).
Lemma refl_ana f : shaped (g_nlat g) (g_nlon g) f -> to_spectral T g (mirror (-1) f) = weigh w (to_spectral T g f).
Proof. apply (re_analysis _ _ _ _ HR). Qed.
Lemma refl_fcor : weigh w (fcor2_spectral T g) = fcor2_spectral T g.
Proof. unfold fcor2_spectral. rewrite <- refl_ana by apply fcor2_shaped. f_equal. now apply fcor2_antisymmetric. Qed.
Lemma refl_wind (s : state K) : s_grid s = g -> length (s_pvs s) = N ->
  s_invert_pv T (reflected s) = (mirror 1 (fst (s_invert_pv T s)), mirror (-1) (snd (s_invert_pv T s))).
Proof.
  intros G L. unfold s_invert_pv, s_vorticity_spectral. unfold reflected, flip; cbn [s_grid s_pvs]; fold (fw (s_grid s)). rewrite G.
  pose proof (F2_len T g H) as LF. rewrite <- refl_fcor at 1 2. rewrite <- weigh_sub by lia.
  set (vo := ssub (s_pvs s) (fcor2_spectral T g)). assert (LV : length vo = N) by (unfold vo; rewrite ssub_length; lia).
  rewrite !szeros_repeat, weigh_length, LV. unfold wind. cbn [as_spectral].
  rewrite <- (weigh_zeros (fun k => RtoC (1 * (-1) ^ (order (g_ntrunc g) k + degree (g_ntrunc g) k))) N) at 1. apply (re_wind _ _ _ _ HR); [assumption|apply repeat_length].
Qed.
Lemma refl_flux (s : state K) : s_grid s = g -> length (s_pvs s) = N -> s_pv_flux_spectral T (reflected s) = weigh w (s_pv_flux_spectral T s).
Proof.
  intros G L. unfold s_pv_flux_spectral, s_u, s_v. rewrite refl_wind by assumption. unfold s_pv. unfold reflected; cbn [s_grid s_pvs fst snd]. rewrite G.
  change (to_grid T g (flip (-1) (g_ntrunc g) (s_pvs s))) with (sh_spectogrd (sph T g) (flip (-1) (g_ntrunc g) (s_pvs s))). rewrite (re_synthesis _ _ _ _ HR) by assumption.
  assert (SP := B_shape T g H (s_pvs s)). assert (SW : shaped (g_nlat g) (g_nlon g) (fst (s_invert_pv T s)) /\ shaped (g_nlat g) (g_nlon g) (snd (s_invert_pv T s))).
  { unfold s_invert_pv, wind. rewrite G. apply (et_wind_shape _ _ _ _ H). }
  destruct SW as [SU SV]. unfold to_grid in *. rewrite !(mirror_mmul _ _ (g_nlat g) (g_nlon g)) by assumption.
  unfold divergence_spectral, vorticity_divergence_spectral.
  replace (-1 * -1) with (- (-1 * 1)) by ring. rewrite (re_vrtdiv _ _ _ _ HR) by (apply shaped_mmul; assumption). cbn [snd].
  unfold flip, fw. now rewrite Rmult_1_r.
Qed.
Lemma refl_run (M M' : bmodel K) fuel init dt tend se : corresponding g reflected (mirror (-1)) M M' -> s_grid init = g -> length (s_pvs init) = N ->
  run T M' fuel (reflected init) dt tend se = map_run reflected (run T M fuel init dt tend se).
Proof. intros HM G L. apply (act_run T g H fw (mirror (-1))); [apply refl_ana|exact refl_flux|exact HM|now split]. Qed.
End Reflection.

(** ** Symmetric initial states *)
Lemma map_fixed {A} (f : A -> A) l x : map f l = l -> In x l -> f x = x.
Proof. induction l as [|a l IH]; [easy|]. cbn. intros [= E1 E2] [->|Hx]; auto. Qed.
Lemma map_run_fixed {K} (f : state K -> state K) r s l : map_run f r = r -> r = Ok (s, l) -> Forall (fun x => f x = x) (s :: items l).
Proof.
  intros E ->. cbn in E. injection E as E1 E2. constructor; [exact E1|]. apply Forall_forall. intros x Hx. destruct l as [l|l]; cbn in E2, Hx; injection E2 as E2; now apply (map_fixed f l).
Qed.
Lemma rotate_uniform nr nc f : shaped nr nc f -> rotate nc f = f -> zonally_uniform nr nc f.
Proof.
  intros S E. split; [assumption|]. intros i j Hi. induction j as [|j IH]; intros Hj; [reflexivity|].
  rewrite <- IH by lia. rewrite <- E at 2. unfold rotate. rewrite (mget_relabel _ nr nc) by (auto; lia). rewrite Nat.mod_small by lia. f_equal. lia.
Qed.
Lemma order_from_le : forall len m k, (2 * k < len * (len + 1))%nat -> (order_from m len k < m + len)%nat.
Proof.
  induction len as [|len IH]; intros m k Hk; [lia|]. cbn [order_from]. destruct (Nat.ltb_spec k (S len)); [lia|].
  specialize (IH (S m) (k - S len)%nat ltac:(nia)). lia.
Qed.
Lemma order_le nt k : (k < nspec nt)%nat -> (order nt k <= nt)%nat.
Proof. intros Hk. unfold order. pose proof (nspec2 nt). pose proof (order_from_le (S nt) 0 k ltac:(nia)). lia. Qed.
Lemma turn_fixed nt nlon x k : (nt < nlon)%nat -> length x = nspec nt -> turn nt nlon x = x -> (k < nspec nt)%nat -> order nt k <> 0%nat -> coef x k = RtoC 0.
Proof.
  intros Hl L E Hk Ho. pose proof (order_le nt k Hk) as O. assert (P : 0 < INR nlon) by (apply lt_0_INR; lia).
  set (a := INR (order nt k) * (2 * PI / INR nlon)). pose proof PI_RGT_0 as PP.
  assert (A0 : 0 < a < 2 * PI).
  { assert (0 < INR (order nt k)) by (apply lt_0_INR; lia). assert (INR (order nt k) < INR nlon) by (apply lt_INR; lia). unfold a. split.
    - apply Rmult_lt_0_compat; [assumption|]. apply Rdiv_lt_0_compat; lra.
    - apply Rmult_lt_reg_r with (INR nlon); [assumption|]. replace (INR (order nt k) * (2 * PI / INR nlon) * INR nlon) with (INR (order nt k) * (2 * PI)) by (field; lra). nra. }
  assert (C1 : cos a <> 1).
  { intros C. assert (S2 : sin (a / 2) = 0).
    { replace a with (2 * (a / 2)) in C by field. rewrite cos_2a_sin in C. nra. }
    pose proof (sin_gt_0 (a / 2) ltac:(lra) ltac:(lra)). lra. }
  apply (f_equal (fun y => coef y k)) in E. unfold turn in E. rewrite coef_weigh in E by lia. cbv zeta in E. fold a in E. destruct (coef x k) as [p q].
  unfold Cmult in E. cbn [fst snd] in E. injection E as E1 E2.
  assert (Q : (2 - 2 * cos a) * p = 0 /\ (2 - 2 * cos a) * q = 0).
  { pose proof (sin2_cos2 a) as SC. unfold Rsqr in SC. assert (S1 : sin a * q = (cos a - 1) * p) by lra. assert (S2 : sin a * p = (1 - cos a) * q) by lra. split.
    - assert (sin a * (sin a * p) = (1 - cos a) * (sin a * q)) by (rewrite S2; ring). rewrite S1 in H. nra.
    - assert (sin a * (sin a * q) = (cos a - 1) * (sin a * p)) by (rewrite S1; ring). rewrite S2 in H. nra. }
  destruct Q as [Q1 Q2]. apply Rmult_integral in Q1, Q2. unfold RtoC. apply pair_eqC; lra.
Qed.

Section Zonal.
Context {K : numtype} (T : sphfam) (g : grid) (H : exact_on T g) (Hn : (g_ntrunc g < g_nlon g)%nat) (HR : rotates T g).
Notation N := (nspec (g_ntrunc g)).
Notation rot := (rotate (g_nlon g)).
Lemma rotated_fixed (s : state K) : rotated s = s <-> turn (g_ntrunc (s_grid s)) (g_nlon (s_grid s)) (s_pvs s) = s_pvs s.
Proof. unfold rotated. split; [now intros E%(f_equal s_pvs)|]. intros ->. now destruct s. Qed.
Lemma reflected_fixed (s : state K) : reflected s = s <-> flip (-1) (g_ntrunc (s_grid s)) (s_pvs s) = s_pvs s.
Proof. unfold reflected. split; [now intros E%(f_equal s_pvs)|]. intros ->. now destruct s. Qed.
Lemma zonal_wind (s : state K) : s_grid s = g -> length (s_pvs s) = N -> rotated s = s ->
  zonally_uniform (g_nlat g) (g_nlon g) (s_pv T s) /\ zonally_uniform (g_nlat g) (g_nlon g) (s_u T s) /\ zonally_uniform (g_nlat g) (g_nlon g) (s_v T s).
Proof.
  intros G L E. assert (S := rot_wind T g H ltac:(lia) HR s G L). rewrite E in S.
  assert (SW : shaped (g_nlat g) (g_nlon g) (fst (s_invert_pv T s)) /\ shaped (g_nlat g) (g_nlon g) (snd (s_invert_pv T s))).
  { unfold s_invert_pv, wind. rewrite G. apply (et_wind_shape _ _ _ _ H). }
  split; [|split].
  - unfold s_pv. rewrite G. apply rotate_uniform; [apply (B_shape T g H)|]. rewrite <- (rot_syn T g HR) by assumption. f_equal.
    apply rotated_fixed in E. rewrite G in E. exact E.
  - apply rotate_uniform; [apply SW|]. unfold s_u. symmetry. now rewrite S at 1.
  - apply rotate_uniform; [apply SW|]. unfold s_v. symmetry. now rewrite S at 1.
Qed.
Lemma zonal_init f (s : state K) : zonally_uniform (g_nlat g) (g_nlon g) f -> s_pvs s = to_spectral T g f -> s_grid s = g -> rotated s = s.
Proof.
  intros U E G. apply rotated_fixed. rewrite G, E. change (weigh (rw g) (to_spectral T g f) = to_spectral T g f). rewrite <- (rot_ana T g HR) by apply U. f_equal.
  apply (relabel_uniform _ (g_nlat g) (g_nlon g)); [apply rotate_permutes; lia|assumption].
Qed.

(** A zonal flow has no northward wind and its PV flux no divergence *)
Hypothesis HV : reverses T g.
Notation zero := (repeat (RtoC 0) N).
Notation Zm := (mat_of (g_nlat g) (g_nlon g) (fun _ _ => 0)).
Lemma westward_permutes n : (0 < n)%nat -> permutes n (fun j => ((n - j) mod n)%nat).
Proof.
  intros P. split; [intros; apply Nat.mod_upper_bound; lia|]. intros i j Hi Hj E. destruct i as [|i], j as [|j]; [reflexivity|..].
  - rewrite Nat.sub_0_r, Nat.mod_same, Nat.mod_small in E; lia.
  - rewrite Nat.sub_0_r, Nat.mod_same, Nat.mod_small in E; lia.
  - rewrite !Nat.mod_small in E; lia.
Qed.
Lemma westward_uniform f : zonally_uniform (g_nlat g) (g_nlon g) f -> westward (g_nlon g) f = f.
Proof. intros U. apply (relabel_uniform _ (g_nlat g) (g_nlon g)); [apply westward_permutes; lia|assumption]. Qed.
Lemma conj_uniform f : zonally_uniform (g_nlat g) (g_nlon g) f -> map Cconj (to_spectral T g f) = to_spectral T g f.
Proof. intros U. unfold to_spectral. rewrite <- (rv_analysis _ _ _ _ HV) by apply U. now rewrite westward_uniform. Qed.
Lemma coef_conj x k : coef (map Cconj x) k = Cconj (coef x k).
Proof. unfold coef. rewrite <- (map_nth Cconj). f_equal. unfold Cconj, RtoC. apply pair_eqC; cbn; ring. Qed.
Lemma conj_sub x y : length x = length y -> map Cconj (ssub x y) = ssub (map Cconj x) (map Cconj y).
Proof.
  intros L. apply spec_ext; [unfold ssub; rewrite map_length, !map2_length, !map_length; lia|]. rewrite map_length, ssub_length by assumption. intros k Hk.
  rewrite coef_conj, !coef_ssub by (rewrite ?map_length; lia). rewrite !coef_conj. destruct (coef x k), (coef y k). unfold Cconj, Cminus, Copp, Cplus. cbn. apply pair_eqC; ring.
Qed.
Lemma conj_zero : map Cconj zero = zero.
Proof. apply spec_ext; [now rewrite map_length|]. intros k _. rewrite coef_conj, !coef_zero. unfold Cconj, RtoC. apply pair_eqC; cbn; ring. Qed.
Lemma scale_lin_spec a x : length x = N -> sscale a x = sadd (sscale a x) (sscale 0 x).
Proof.
  intros L. apply spec_ext; [rewrite sadd_length; rewrite !sscale_length; lia|]. rewrite sscale_length. intros k Hk.
  rewrite coef_sadd by (rewrite !sscale_length; lia). rewrite !coef_sscale by lia. ring.
Qed.
Lemma scale_lin_mat a f : shaped (g_nlat g) (g_nlon g) f -> mscale a f = madd (mscale a f) (mscale 0 f).
Proof.
  intros S. apply (mat_ext (g_nlat g) (g_nlon g)); [now apply shaped_mscale|apply shaped_madd; now apply shaped_mscale|]. intros i j Hi Hj.
  rewrite (mget_madd (g_nlat g) (g_nlon g)) by auto using shaped_mscale. rewrite !(mget_mscale (g_nlat g) (g_nlon g)) by assumption. ring.
Qed.
Lemma zero_scale a : sscale a zero = zero.
Proof. apply spec_ext; [now rewrite sscale_length|]. rewrite sscale_length, repeat_length. intros k Hk. rewrite coef_sscale, coef_zero by now rewrite repeat_length. ring. Qed.
Lemma zonal_no_v f (s : state K) : zonally_uniform (g_nlat g) (g_nlon g) f -> s_pvs s = to_spectral T g f -> s_grid s = g -> s_v T s = Zm.
Proof.
  intros U E G. assert (L : length (s_pvs s) = N) by (rewrite E; apply (A_len T g H)).
  destruct (zonal_wind s G L (zonal_init f s U E G)) as [_ [_ UV]].
  set (z := s_vorticity_spectral T s). assert (LZ : length z = N).
  { unfold z, s_vorticity_spectral. rewrite G, ssub_length; [assumption|]. rewrite (F2_len T g H). exact L. }
  assert (CZ : map Cconj z = z).
  { unfold z, s_vorticity_spectral. rewrite G, E, conj_sub by (rewrite (F2_len T g H); apply (A_len T g H)). unfold fcor2_spectral. rewrite !conj_uniform; [reflexivity| |assumption]. apply fcor2_uniform. lia. }
  assert (WE : s_v T s = snd (sh_getuv (sph T g) z zero)).
  { unfold s_v, s_invert_pv. fold z. rewrite G, szeros_repeat, LZ. reflexivity. }
  pose proof (rv_wind _ _ _ _ HV z zero LZ (repeat_length _ _)) as W. rewrite CZ, conj_zero in W.
  assert (LZ0 : length zero = N) by apply repeat_length.
  pose proof (et_wind_linear _ _ _ _ H (-1) 0 z zero z zero LZ LZ0 LZ LZ0) as [_ WL].
  rewrite <- (scale_lin_spec (-1) z LZ), <- (scale_lin_spec (-1) zero LZ0), zero_scale, W in WL. cbn [snd] in WL. rewrite <- WE in WL.
  rewrite (westward_uniform _ UV) in WL. apply (mat_ext (g_nlat g) (g_nlon g)); [apply UV|apply shaped_mat_of|]. intros i j Hi Hj. rewrite mget_mat_of by assumption.
  apply (f_equal (fun m => mget m i j)) in WL. rewrite (mget_madd (g_nlat g) (g_nlon g)) in WL by (auto; apply shaped_mscale; apply UV). rewrite !(mget_mscale (g_nlat g) (g_nlon g)) in WL by (auto; apply UV). lra.
Qed.
Lemma uniform_vorticity u v : zonally_uniform (g_nlat g) (g_nlon g) u -> zonally_uniform (g_nlat g) (g_nlon g) v ->
  zonally_uniform (g_nlat g) (g_nlon g) (vorticity T g u v).
Proof.
  intros U V. apply rotate_uniform; [apply (B_shape T g H)|]. unfold vorticity, vorticity_spectral, vorticity_divergence_spectral.
  rewrite <- (rot_syn T g HR) by apply (et_vrtdiv_len _ _ _ _ H). f_equal.
  pose proof (ro_vrtdiv _ _ _ _ HR u v (proj1 U) (proj1 V)) as E.
  assert (P : forall f, zonally_uniform (g_nlat g) (g_nlon g) f -> rotate (g_nlon g) f = f).
  { intros f Uf. apply (relabel_uniform _ (g_nlat g) (g_nlon g)); [apply rotate_permutes; lia|assumption]. }
  rewrite (P u U), (P v V) in E. apply (f_equal fst) in E. symmetry. exact E.
Qed.
Lemma uniform_add f h : zonally_uniform (g_nlat g) (g_nlon g) f -> zonally_uniform (g_nlat g) (g_nlon g) h -> zonally_uniform (g_nlat g) (g_nlon g) (madd f h).
Proof.
  intros [S U] [S' U']. split; [now apply shaped_madd|]. intros i j Hi Hj. rewrite !(mget_madd (g_nlat g) (g_nlon g)) by (auto; lia). now rewrite U, U'.
Qed.
Lemma uniform_mul f h : zonally_uniform (g_nlat g) (g_nlon g) f -> zonally_uniform (g_nlat g) (g_nlon g) h -> zonally_uniform (g_nlat g) (g_nlon g) (mmul f h).
Proof.
  intros [S U] [S' U']. split; [now apply shaped_mmul|]. intros i j Hi Hj. rewrite !(mget_mmul (g_nlat g) (g_nlon g)) by (auto; lia). now rewrite U, U'.
Qed.
Lemma zonal_no_flux f (s : state K) : zonally_uniform (g_nlat g) (g_nlon g) f -> s_pvs s = to_spectral T g f -> s_grid s = g -> s_pv_flux_spectral T s = zero.
Proof.
  intros U E G. assert (L : length (s_pvs s) = N) by (rewrite E; apply (A_len T g H)). pose proof (zonal_init f s U E G) as RS.
  destruct (zonal_wind s G L RS) as [UQ [UU UV]]. pose proof (rot_flux T g H ltac:(lia) HR s G L) as RF. rewrite RS in RF.
  pose proof (flux_length T g H s G) as LF. unfold s_pv_flux_spectral, divergence_spectral, vorticity_divergence_spectral in LF, RF |- *. rewrite G in LF, RF |- *.
  assert (EV : mmul (s_pv T s) (s_v T s) = Zm).
  { apply (mat_ext (g_nlat g) (g_nlon g)); [apply shaped_mmul; [apply UQ|apply UV]|apply shaped_mat_of|]. intros i j Hi Hj.
    rewrite (mget_mmul (g_nlat g) (g_nlon g)) by (auto; first [apply UQ|apply UV]). rewrite (zonal_no_v f s U E G), !mget_mat_of by assumption. ring. }
  rewrite EV in *. pose proof (uniform_mul _ _ UQ UU) as UP. set (p := mmul (s_pv T s) (s_u T s)) in *.
  assert (UZ : zonally_uniform (g_nlat g) (g_nlon g) Zm). { split; [apply shaped_mat_of|]. intros i j Hi Hj. rewrite !mget_mat_of; auto; lia. }
  pose proof (rv_vrtdiv _ _ _ _ HV p Zm (proj1 UP) (proj1 UZ)) as V. rewrite !westward_uniform in V by assumption.
  assert (ZM : mscale (-1) Zm = Zm). { apply (mat_ext (g_nlat g) (g_nlon g)); [apply shaped_mscale|..]; try apply shaped_mat_of. intros i j Hi Hj. rewrite (mget_mscale (g_nlat g) (g_nlon g)), mget_mat_of by (auto; apply shaped_mat_of). ring. }
  pose proof (et_vrtdiv_linear _ _ _ _ H (-1) 0 p Zm p Zm (proj1 UP) (proj1 UZ) (proj1 UP) (proj1 UZ)) as [_ VL].
  rewrite <- (scale_lin_mat (-1) p (proj1 UP)), <- (scale_lin_mat (-1) Zm (proj1 UZ)), ZM, V in VL. cbn [snd] in VL.
  pose proof (rv_real _ _ _ _ HV p Zm) as VR. fold (sph T g) in *. set (d := snd (sh_getvrtdivspec (sph T g) p Zm (g_ntrunc g))) in *.
  apply spec_ext; [now rewrite LF, repeat_length|]. intros k Hk. rewrite coef_zero. rewrite LF in Hk.
  destruct (Nat.eq_dec (order (g_ntrunc g) k) 0) as [O|O].
  - specialize (VR k O). apply (f_equal (fun x => coef x k)) in VL. rewrite coef_conj, coef_sadd in VL by (rewrite !sscale_length; lia). rewrite !coef_sscale in VL by lia.
    destruct (coef d k) as [a b]. cbn in VR. subst b. unfold Cconj, RtoC, Cplus, Cmult in VL. cbn in VL. injection VL as V1 V2. unfold RtoC. apply pair_eqC; lra.
  - apply (turn_fixed (g_ntrunc g) (g_nlon g)); auto.
Qed.
Hypothesis Hr : g_rsphere g <> 0.
Lemma zonal_neutral (M : bmodel K) d x : length x = N -> m_coeff M = 0 \/ (exists bg, m_bg M = Some bg /\ to_spectral T g bg = x) -> apply_diffusion T M g d x = x.
Proof.
  intros L [E|[bg [E Q]]]; [|rewrite <- Q; now apply (bg_fixed T g H Hr)]. unfold apply_diffusion. rewrite E. destruct (m_bg M) as [bg|].
  - rewrite (diffusion_id g Hr); [apply sub_add; now rewrite (A_len T g H)| |ring]. rewrite ssub_length; [exact L|]. now rewrite (A_len T g H).
  - apply (diffusion_id g Hr); [exact L|ring].
Qed.
Definition still (x : list C) (s : state K) : Prop := s_grid s = g /\ s_pvs s = x.
Lemma steps_zonal (M : bmodel K) f init dt n s new : zonally_uniform (g_nlat g) (g_nlon g) f -> m_rhs M = None ->
  m_coeff M = 0 \/ (exists bg, m_bg M = Some bg /\ to_spectral T g bg = to_spectral T g f) -> still (to_spectral T g f) init ->
  steps T M init dt n = Ok (s, new) -> still (to_spectral T g f) s /\ still (to_spectral T g f) new.
Proof.
  intros U HM HN HI. pose proof (A_len T g H f) as LF.
  assert (TZ : forall s, still (to_spectral T g f) s -> pv_tendency_spectral T M s = Ok zero).
  { intros q [G E]. unfold pv_tendency_spectral. rewrite HM, (zonal_no_flux f q U E G). now rewrite opp_zeros. }
  revert s new. induction n as [|n IH]; intros s new HS.
  - cbn [steps] in HS. inv_bind HS. injection HS as <- <-. split; [exact HI|].
    unfold euler in E. rewrite (TZ init HI) in E. inv_bind E. cbn [bind] in E. inv_bind E. injection E as <-.
    destruct HI as [EG EP]. split; [exact EG|]. cbn [s_pvs]. rewrite EG, EP, scale_zeros, add_zeros by exact LF. now apply zonal_neutral.
  - apply steps_prev in HS. destruct HS as [[a b] [HS HF]]. destruct (IH a b HS) as [H1 H2]. cbn [fst snd] in HF.
    unfold leapfrog in HF. rewrite (TZ b H2) in HF. do 2 inv_bind HF. cbn [bind] in HF. inv_bind HF. injection HF as <- <-.
    destruct H1 as [EG EP], H2 as [EG' EP']. unfold still. cbn [s_grid s_pvs]. rewrite EG', EP, EP', scale_zeros, add_zeros by exact LF.
    rewrite zonal_neutral by assumption. repeat split.
    apply spec_ext; [rewrite sadd_length; rewrite !sscale_length; [reflexivity|now rewrite sadd_length]|].
    rewrite sadd_length by (rewrite !sscale_length; now rewrite sadd_length). rewrite sscale_length. intros k Hk.
    rewrite coef_sadd by (rewrite !sscale_length; try rewrite sadd_length; auto). rewrite !coef_sscale by (try rewrite sadd_length; auto).
    rewrite coef_sadd by auto. apply filter_mean.
Qed.
Lemma run_zonal (M : bmodel K) f fuel init dt tend se e r : zonally_uniform (g_nlat g) (g_nlon g) f -> m_rhs M = None ->
  m_coeff M = 0 \/ (exists bg, m_bg M = Some bg /\ to_spectral T g bg = to_spectral T g f) -> still (to_spectral T g f) init ->
  run T M fuel init dt tend se = Ok (e, r) -> Forall (still (to_spectral T g f)) (e :: items r).
Proof.
  intros U HM HN HI R. apply run_sound in R. destruct R as [[_ [-> ->]]|[_ [N' [HT [_ [_ ->]]]]]].
  - repeat (constructor; [exact HI|]). constructor.
  - constructor.
    + destruct HT as [new HT]. exact (proj1 (steps_zonal M _ _ _ _ _ _ U HM HN HI HT)).
    + cbn [items]. constructor; [exact HI|]. apply Forall_map. apply Forall_forall. intros k Hk. apply saved_range in Hk.
      destruct HT as [new HT]. destruct (steps_le _ _ _ _ _ k _ HT ltac:(lia)) as [[a b] Hab].
      rewrite (at_step_eq _ _ _ _ _ _ _ Hab). exact (proj1 (steps_zonal M _ _ _ _ _ _ U HM HN HI Hab)).
Qed.
End Zonal.
