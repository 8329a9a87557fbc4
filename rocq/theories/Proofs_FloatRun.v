(** Integrations in double precision. *)
From Coq Require Import Reals ZArith Lia Lra List.
From Flocq Require Import Core Relative Plus_error.
From Verif Require Import Model_Run Spec_Run Spec_Float Spec_FloatRun Proofs_Base Proofs_Float Proofs_Run.
From Flocq Require Import BinarySingleNaN.
Import ListNotations.
Open Scope R_scope.

Lemma normalize_equiv m e s : SpecFloat.binary_normalize 53 1024 m e s = B2SF (BinarySingleNaN.binary_normalize 53 1024 Hprec Hmax mode_NE m e s).
Proof. case m as [|p|p]; [reflexivity| |]; simpl; rewrite B2SF_SF2B; apply round_equiv. Qed.
Lemma add_equiv (x y : bf) : b64_add (B2SF x) (B2SF y) = B2SF (Bplus mode_NE x y).
Proof.
  unfold b64_add, b64_prec, b64_emax.
  case x as [sx|sx| |sx mx ex Bx]; case y as [sy|sy| |sy my ey By]; [now (trivial || simpl; case Bool.eqb)..|].
  apply normalize_equiv.
Qed.
Lemma sub_equiv (x y : bf) : b64_sub (B2SF x) (B2SF y) = B2SF (Bminus mode_NE x y).
Proof.
  unfold b64_sub, b64_prec, b64_emax.
  case x as [sx|sx| |sx mx ex Bx]; case y as [sy|sy| |sy my ey By]; [now (trivial || simpl; case Bool.eqb)..|].
  simpl. unfold Zminus. rewrite <- cond_Zopp_negb. apply normalize_equiv.
Qed.
Lemma denotes_B x r : denotes x r <-> exists b : bf, x = B2SF b /\ is_finite b = true /\ B2R b = r.
Proof.
  split.
  - intros (D & F & V). exists (SF2B x D). assert (E : B2SF (SF2B x D) = x) by apply B2SF_SF2B. split; [now symmetry|].
    split; [|rewrite <- value_B2R; now rewrite E]. destruct x; cbn in *; tauto || reflexivity.
  - intros (b & -> & F & V). split; [apply valid_binary_B2SF|]. split; [destruct b; try discriminate; exact I|]. now rewrite value_B2R.
Qed.
Lemma b64_R_value x : b64_R x = float_value x.
Proof. destruct x as [s|s| |s m e]; try reflexivity. cbn. destruct s; lra. Qed.

(** multiples of a power of two *)
Lemma scaled_format z e : (Z.abs z <= 2 ^ 53)%Z -> (-1074 <= e)%Z -> generic_format radix2 fe (IZR z * bpow radix2 e).
Proof.
  intros H He. destruct (Z.eq_dec (Z.abs z) (2 ^ 53)) as [E|E].
  - assert (G : generic_format radix2 fe (bpow radix2 (53 + e))).
    { apply (generic_format_FLT_bpow radix2 (3 - 1024 - 53) 53). lia. }
    rewrite bpow_plus in G. change (bpow radix2 53) with (IZR (2 ^ 53)) in G. rewrite <- E in G. destruct (Z_le_dec 0 z) as [P|P].
    + now rewrite Z.abs_eq in G by assumption.
    + rewrite Z.abs_neq in G by lia. rewrite <- (Z.opp_involutive z), opp_IZR. rewrite <- Ropp_mult_distr_l. now apply generic_format_opp.
  - apply (generic_format_FLT radix2 (3 - 1024 - 53) 53). exists (Float radix2 z e).
    + reflexivity.
    + cbn [Fnum]. change (radix_val radix2) with 2%Z. lia.
    + cbn. lia.
Qed.
Lemma scaled_max z e : (Z.abs z <= 2 ^ 53)%Z -> (e <= 970)%Z -> Rabs (IZR z * bpow radix2 e) < bpow radix2 1024.
Proof.
  intros H He. rewrite Rabs_mult, <- abs_IZR, (Rabs_pos_eq (bpow radix2 e)) by apply bpow_ge_0.
  apply Rle_lt_trans with (bpow radix2 (53 + e)); [|apply bpow_lt; lia].
  rewrite bpow_plus. apply Rmult_le_compat_r; [apply bpow_ge_0|]. change (bpow radix2 53) with (IZR (2 ^ 53)). now apply IZR_le.
Qed.
Lemma scaled_bpow e z : scaled e z = IZR z * bpow radix2 e.
Proof. unfold scaled. change 2 with (IZR (radix_val radix2)). now rewrite <- bpow_powerRZ. Qed.
Lemma scaled_lt e a b : scaled e a < scaled e b <-> (a < b)%Z.
Proof.
  rewrite !scaled_bpow. pose proof (bpow_gt_0 radix2 e) as P. split; intros H.
  - apply lt_IZR. nra.
  - apply IZR_lt in H. nra.
Qed.
Lemma scaled_le e a b : scaled e a <= scaled e b <-> (a <= b)%Z.
Proof.
  rewrite !scaled_bpow. pose proof (bpow_gt_0 radix2 e) as P. split; intros H.
  - apply le_IZR. nra.
  - apply IZR_le in H. nra.
Qed.
Lemma denotes_add e x y a b : (-1074 <= e <= 970)%Z -> denotes x (scaled e a) -> denotes y (scaled e b) -> (Z.abs (a + b) <= 2 ^ 53)%Z -> denotes (b64_add x y) (scaled e (a + b)).
Proof.
  intros He Hx Hy H. apply denotes_B in Hx, Hy. destruct Hx as (bx & -> & Fx & Vx), Hy as (by_ & -> & Fy & Vy).
  rewrite add_equiv. apply denotes_B. eexists. split; [reflexivity|].
  pose proof (Bplus_correct 53 1024 Hprec Hmax mode_NE bx by_ Fx Fy) as C. rewrite Vx, Vy in C.
  replace (scaled e a + scaled e b) with (scaled e (a + b)) in C by (unfold scaled; rewrite plus_IZR; ring).
  rewrite scaled_bpow in *. rewrite round_generic in C; [|apply valid_rnd_round_mode|now apply scaled_format].
  rewrite Rlt_bool_true in C by now apply scaled_max. tauto.
Qed.
Lemma denotes_sub e x y a b : (-1074 <= e <= 970)%Z -> denotes x (scaled e a) -> denotes y (scaled e b) -> (Z.abs (a - b) <= 2 ^ 53)%Z -> denotes (b64_sub x y) (scaled e (a - b)).
Proof.
  intros He Hx Hy H. apply denotes_B in Hx, Hy. destruct Hx as (bx & -> & Fx & Vx), Hy as (by_ & -> & Fy & Vy).
  rewrite sub_equiv. apply denotes_B. eexists. split; [reflexivity|].
  pose proof (Bminus_correct 53 1024 Hprec Hmax mode_NE bx by_ Fx Fy) as C. rewrite Vx, Vy in C.
  replace (scaled e a - scaled e b) with (scaled e (a - b)) in C by (unfold scaled; rewrite minus_IZR; ring).
  rewrite scaled_bpow in *. rewrite round_generic in C; [|apply valid_rnd_round_mode|now apply scaled_format].
  rewrite Rlt_bool_true in C by now apply scaled_max. tauto.
Qed.
Lemma denotes_lt x y r s : denotes x r -> denotes y s -> SFltb x y = Rltb r s.
Proof.
  intros Hx Hy. apply denotes_B in Hx, Hy. destruct Hx as (bx & -> & Fx & <-), Hy as (by_ & -> & Fy & <-).
  change (Bltb bx by_ = Rltb (B2R bx) (B2R by_)). rewrite Bltb_correct by assumption. case Rlt_bool_spec; intros L; symmetry; [now apply Rltb_true|now apply Rltb_false].
Qed.
Lemma denotes_le x y r s : denotes x r -> denotes y s -> SFleb x y = Rleb r s.
Proof.
  intros Hx Hy. apply denotes_B in Hx, Hy. destruct Hx as (bx & -> & Fx & <-), Hy as (by_ & -> & Fy & <-).
  change (Bleb bx by_ = Rleb (B2R bx) (B2R by_)). rewrite Bleb_correct by assumption. case Rle_bool_spec; intros L; symmetry; [now apply Rleb_true|now apply Rleb_false].
Qed.

Lemma denotes_seconds x r : denotes x r -> to_seconds (@VNum num64 x) = to_seconds (@VNum numR r).
Proof. intros (_ & _ & V). cbn. now rewrite b64_R_value, V. Qed.
Lemma tendency_same T M M' s s' : same_model M M' -> same_state s s' -> pv_tendency_spectral T M s = pv_tendency_spectral T M' s'.
Proof.
  intros (_ & _ & _ & F) S. unfold pv_tendency_spectral.
  assert (E : s_pv_flux_spectral T s = s_pv_flux_spectral T s').
  { destruct s as [g t p], s' as [g' t' p'], S as (Eg & _ & Ep). cbn in Eg, Ep. subst. reflexivity. }
  rewrite E.
  destruct (m_rhs M) as [f|], (m_rhs M') as [f'|]; try contradiction; [|reflexivity]. rewrite (F s s' S). destruct S as (-> & _ & _). reflexivity.
Qed.
Lemma diffusion_same T M M' g dt x : same_model M M' -> apply_diffusion T M g dt x = apply_diffusion T M' g dt x.
Proof. intros (E1 & E2 & E3 & _). unfold apply_diffusion. now rewrite E1, E2, E3. Qed.

Section Run.
Variables (T : sphfam) (M : bmodel num64) (M' : bmodel numR) (HM : same_model M M') (e : Z) (He : (-1074 <= e <= 970)%Z).

Lemma euler_same s s' x z d : same_state s s' -> s_time s' = @VNum numR (scaled e z) -> denotes x (scaled e d) -> (Z.abs (z + d) <= 2 ^ 53)%Z ->
  (exists ex, euler T M s (@VNum num64 x) = Err ex /\ euler T M' s' (@VNum numR (scaled e d)) = Err ex)
  \/ exists n n', euler T M s (@VNum num64 x) = Ok n /\ euler T M' s' (@VNum numR (scaled e d)) = Ok n' /\ same_state n n' /\ s_time n' = @VNum numR (scaled e (z + d)).
Proof.
  intros S Z X B. unfold euler. rewrite (denotes_seconds _ _ X). cbn [to_seconds bind]. rewrite (tendency_same _ _ _ _ _ HM S).
  destruct (pv_tendency_spectral T M' s') as [t|ex]; [|left; now exists ex]. cbn [bind].
  destruct s as [g tm p], s' as [g' tm' p'], S as (Eg & Et & Ep). cbn in Eg, Et, Ep, Z. subst. destruct tm as [y|y|y]; try contradiction. cbn in Et.
  right. cbn [py_add bind s_time s_grid s_pvs]. do 2 eexists. split; [reflexivity|]. split; [reflexivity|].
  assert (Es : n_add numR (scaled e z) (scaled e d) = scaled e (z + d)) by (cbn; unfold scaled; rewrite plus_IZR; ring).
  rewrite Es. cbn [s_time]. split; [|reflexivity]. split; [reflexivity|]. split; [|cbn [s_pvs n_R numR]; now rewrite (diffusion_same _ _ _ _ _ _ HM)].
  cbn [s_time same_time]. now apply denotes_add.
Qed.
Lemma leapfrog_same s s' n n' z d nu : same_state s s' -> same_state n n' -> s_time s' = @VNum numR (scaled e z) -> s_time n' = @VNum numR (scaled e (z + d)) ->
  (Z.abs d <= 2 ^ 53)%Z -> (Z.abs (z + d + d) <= 2 ^ 53)%Z ->
  (exists ex, leapfrog T M s n nu = Err ex /\ leapfrog T M' s' n' nu = Err ex)
  \/ exists a a' b b', leapfrog T M s n nu = Ok (a, b) /\ leapfrog T M' s' n' nu = Ok (a', b') /\ same_state a a' /\ same_state b b'
      /\ s_time a' = @VNum numR (scaled e (z + d)) /\ s_time b' = @VNum numR (scaled e (z + d + d)).
Proof.
  intros S N Zs Zn B1 B2. unfold leapfrog. destruct s as [g tm p], s' as [g' tm' p'], S as (Eg & Et & Ep). cbn in Eg, Et, Ep, Zs. subst.
  pose proof N as N0. destruct n as [h tn q], n' as [h' tn' q'], N as (Eh & Eu & Eq). cbn in Eh, Eu, Eq, Zn. subst.
  destruct tm as [y|y|y]; try contradiction. destruct tn as [w|w|w]; try contradiction. cbn in Et, Eu.
  cbn [py_sub bind s_time]. assert (X : denotes (n_sub num64 w y) (scaled e d)).
  { replace d with (z + d - z)%Z by lia. apply denotes_sub; auto. now replace (z + d - z)%Z with d by lia. }
  assert (Es : n_sub numR (scaled e (z + d)) (scaled e z) = scaled e d) by (cbn; unfold scaled; rewrite plus_IZR; ring).
  rewrite Es. rewrite (denotes_seconds _ _ X). cbn [to_seconds bind]. rewrite (tendency_same _ _ _ _ _ HM N0).
  destruct (pv_tendency_spectral T M' _) as [t|ex]; [|left; now exists ex]. cbn [bind].
  right. cbn [py_add bind s_time s_grid s_pvs]. do 4 eexists. split; [reflexivity|]. split; [reflexivity|].
  assert (Ea : n_add numR (scaled e (z + d)) (scaled e d) = scaled e (z + d + d)) by (cbn; unfold scaled; rewrite !plus_IZR; ring).
  rewrite Ea. unfold same_state. cbn [s_time s_grid s_pvs same_time n_R numR]. rewrite !(diffusion_same _ _ _ _ _ _ HM).
  repeat split; try reflexivity; try apply Eu; apply (denotes_add e w _ (z + d) d He Eu X B2).
Qed.

Lemma loop_same fuel tend tend' se se' te sv d : denotes tend (scaled e te) -> denotes se (scaled e sv) -> tend' = scaled e te -> se' = scaled e sv ->
  (0 < d)%Z -> (te + 2 * d <= 2 ^ 53)%Z -> (te + d + sv <= 2 ^ 53)%Z ->
  forall s s' n n' l l' w z k, same_state s s' -> same_state n n' -> Forall2 same_state l l' -> s_time s' = @VNum numR (scaled e z) -> s_time n' = @VNum numR (scaled e (z + d)) ->
  (- 2 ^ 53 <= z)%Z -> (z < te + d)%Z -> (d <= 2 ^ 53)%Z -> denotes w (scaled e k) -> ((0 < sv)%Z -> (0 < k)%Z) ->
  (exists ex, run_loop T M fuel (@VNum num64 tend) (@VNum num64 se) s n l (@VNum num64 w) = Err ex
           /\ run_loop T M' fuel (@VNum numR tend') (@VNum numR se') s' n' l' (@VNum numR (scaled e k)) = Err ex)
  \/ exists f f' r r', run_loop T M fuel (@VNum num64 tend) (@VNum num64 se) s n l (@VNum num64 w) = Ok (f, r)
           /\ run_loop T M' fuel (@VNum numR tend') (@VNum numR se') s' n' l' (@VNum numR (scaled e k)) = Ok (f', r')
           /\ same_state f f' /\ Forall2 same_state r r'.
Proof.
  intros Hte Hse -> -> Hd B1 B2. induction fuel as [|fuel IH]; intros s s' n n' l l' w z k S N L Zs Zn Hz Hz2 Hd2 W K; [left; now eexists|].
  cbn [run_loop]. pose proof S as (_ & St & _). rewrite Zs in St. destruct (s_time s) as [y|y|y] eqn:Y; try contradiction. cbn [same_time] in St.
  rewrite Zs. cbn [py_lt bind n_lt num64 numR]. rewrite (denotes_lt _ _ _ _ St Hte).
  destruct (Rltb (scaled e z) (scaled e te)) eqn:C; [|right; exists s, s', l, l'; auto].
  apply Rltb_true in C. apply scaled_lt in C.
  destruct (leapfrog_same s s' n n' z d default_nu S N Zs Zn) as [(ex & E1 & E2)|(a & a' & b & b' & E1 & E2 & Sa & Sb & Za & Zb)]; [lia|lia| |].
  { left. exists ex. now rewrite E1, E2. }
  rewrite E1, E2. cbn [bind].
  assert (Z0 : denotes (S754_zero false) (scaled e 0)). { split; [reflexivity|]. split; [exact I|]. cbn. unfold scaled. lra. }
  replace (n_zero numR) with (scaled e 0) by (unfold scaled; cbn; lra). cbn [n_zero num64].
  rewrite (denotes_lt _ _ _ _ Z0 Hse). destruct (Rltb (scaled e 0) (scaled e sv)) eqn:P; [|apply IH with (z := (z + d)%Z); auto; lia].
  apply Rltb_true in P. apply scaled_lt in P.
  pose proof Sa as (_ & Sat & _). rewrite Za in Sat. destruct (s_time a) as [x|x|x] eqn:X; try contradiction. cbn [same_time] in Sat.
  rewrite Za. cbn [py_le bind n_le num64 numR]. rewrite (denotes_le _ _ _ _ W Sat).
  destruct (Rleb (scaled e k) (scaled e (z + d))) eqn:D; [|apply IH with (z := (z + d)%Z); auto; lia].
  apply Rleb_true in D. apply scaled_le in D. cbn [py_add bind n_add num64 numR].
  replace (scaled e k + scaled e sv) with (scaled e (k + sv)) by (unfold scaled; rewrite plus_IZR; ring).
  specialize (K P).
  apply IH with (z := (z + d)%Z); auto; try lia.
  - apply Forall2_app; auto.
  - apply denotes_add; auto. lia.
Qed.
Lemma statelist_same l l' : Forall2 same_state l l' ->
  (exists ex, statelist_of l = Err ex /\ statelist_of l' = Err ex) \/ statelist_of l = Ok l /\ statelist_of l' = Ok l'.
Proof.
  intros L. destruct L as [|s s' l l' S L]; [right; now split|].
  assert (F : forallb (fun x => grid_eqb (s_grid s) (s_grid x)) (s :: l) = forallb (fun x => grid_eqb (s_grid s') (s_grid x)) (s' :: l')).
  { destruct S as (Eg & _ & _). cbn. rewrite Eg. f_equal. induction L as [|a a' l l' (Ea & _ & _) L IH]; [reflexivity|]. cbn. now rewrite Ea, IH. }
  unfold statelist_of. rewrite F. destruct (forallb (fun x => grid_eqb (s_grid s') (s_grid x)) (s' :: l')) eqn:E; unfold passert.
  - right. now split.
  - left. exists AssertionError. now split.
Qed.
Lemma run_same fuel init init' t0 d te sv xd xe xs : same_state init init' -> s_time init' = @VNum numR (scaled e t0) ->
  denotes xd (scaled e d) -> denotes xe (scaled e te) -> denotes xs (scaled e sv) ->
  (0 < d)%Z -> (- 2 ^ 53 <= t0)%Z -> (te + 2 * d <= 2 ^ 53)%Z -> (te + d + sv <= 2 ^ 53)%Z -> (d <= 2 ^ 53)%Z ->
  same_outcome (run T M fuel init (@VNum num64 xd) (@VNum num64 xe) (@VNum num64 xs))
              (run T M' fuel init' (@VNum numR (scaled e d)) (@VNum numR (scaled e te)) (@VNum numR (scaled e sv))).
Proof.
  intros S Z0 Xd Xe Xs Hd H0 B1 B2 B3. unfold run. pose proof S as (_ & St & _). rewrite Z0 in St. destruct (s_time init) as [y|y|y] eqn:Y; try contradiction. cbn [same_time] in St.
  rewrite Z0. cbn [py_lt bind n_lt num64 numR]. rewrite (denotes_lt _ _ _ _ Xe St).
  destruct (Rltb (scaled e te) (scaled e t0)) eqn:C; [cbn; auto|].
  apply Rltb_false in C. apply scaled_le in C.
  destruct (euler_same init init' xd t0 d S Z0 Xd) as [(ex & E1 & E2)|(n & n' & E1 & E2 & N & Zn)]; [lia|rewrite E1, E2; reflexivity|].
  rewrite E1, E2. cbn [bind].
  destruct (loop_same fuel xe _ xs _ te sv d Xe Xs eq_refl eq_refl Hd B1 B2 init init' n n' [init] [init'] xs t0 sv) as [(ex & E3 & E4)|(f & f' & r & r' & E3 & E4 & F & R)]; auto; try lia.
  - rewrite E3, E4. reflexivity.
  - rewrite E3, E4. cbn [bind]. destruct (statelist_same r r' R) as [(ex & E5 & E6)|[E5 E6]]; rewrite E5, E6; [reflexivity|cbn; auto].
Qed.
End Run.

(** sums and differences with rounding *)
Lemma denotes_format x r : denotes x r -> generic_format radix2 fe r.
Proof. intros H. apply denotes_B in H. destruct H as (b & _ & _ & <-). apply generic_format_B2R. Qed.
Lemma u_half_ulp : u_ro radix2 53 / (1 + u_ro radix2 53) <= half_ulp.
Proof.
  assert (E : u_ro radix2 53 = half_ulp) by (unfold u_ro; now rewrite half_ulp_bpow). rewrite E. pose proof half_ulp_bounds as [U _].
  apply Rmult_le_reg_r with (1 + half_ulp); [lra|]. unfold Rdiv. rewrite Rmult_assoc, Rinv_l by lra. nra.
Qed.
Lemma half_ulp_half : half_ulp <= / 2.
Proof. pose proof half_ulp_2_52. pose proof half_ulp_bounds. assert (1 <= IZR (2 ^ 52)) by (apply IZR_le; lia). nra. Qed.
Lemma rnd_plus x y : generic_format radix2 fe x -> generic_format radix2 fe y -> exists eps, Rabs eps <= half_ulp /\ rnd (x + y) = (x + y) * (1 + eps).
Proof.
  intros Fx Fy. destruct (FLT_plus_error_N_ex radix2 (3 - 1024 - 53) 53 (fun n => negb (Z.even n)) x y Fx Fy) as (eps & E1 & E2).
  exists eps. split; [|exact E2]. pose proof u_half_ulp. lra.
Qed.
Lemma small_rnd r eps : Rabs r <= bpow radix2 1001 -> Rabs eps <= half_ulp -> Rabs (r * (1 + eps)) < bpow radix2 1024.
Proof.
  intros H E. rewrite Rabs_mult. assert (Rabs (1 + eps) <= 2). { apply Rabs_le. apply Rabs_le_inv in E. pose proof half_ulp_half. lra. }
  apply Rle_lt_trans with (bpow radix2 1001 * 2). { apply Rmult_le_compat; auto using Rabs_pos. }
  change 2 with (bpow radix2 1). rewrite <- bpow_plus. now apply bpow_lt.
Qed.
Lemma plus_num x y a b : denotes x a -> denotes y b -> Rabs (a + b) <= bpow radix2 1001 ->
  exists eps, Rabs eps <= half_ulp /\ denotes (b64_add x y) ((a + b) * (1 + eps)).
Proof.
  intros Hx Hy H. destruct (rnd_plus a b (denotes_format _ _ Hx) (denotes_format _ _ Hy)) as (eps & E1 & E2). exists eps. split; [exact E1|].
  apply denotes_B in Hx, Hy. destruct Hx as (bx & -> & Fx & <-), Hy as (by_ & -> & Fy & <-).
  rewrite add_equiv. apply denotes_B. eexists. split; [reflexivity|].
  pose proof (Bplus_correct 53 1024 Hprec Hmax mode_NE bx by_ Fx Fy) as C. rewrite E2 in C. rewrite Rlt_bool_true in C by now apply small_rnd. tauto.
Qed.
Lemma minus_num x y a b : denotes x a -> denotes y b -> Rabs (a - b) <= bpow radix2 1001 ->
  exists eps, Rabs eps <= half_ulp /\ denotes (b64_sub x y) ((a - b) * (1 + eps)).
Proof.
  intros Hx Hy H. destruct (rnd_plus a (- b) (denotes_format _ _ Hx)) as (eps & E1 & E2); [apply generic_format_opp; apply (denotes_format _ _ Hy)|]. exists eps. split; [exact E1|].
  apply denotes_B in Hx, Hy. destruct Hx as (bx & -> & Fx & <-), Hy as (by_ & -> & Fy & <-).
  rewrite sub_equiv. apply denotes_B. eexists. split; [reflexivity|].
  pose proof (Bminus_correct 53 1024 Hprec Hmax mode_NE bx by_ Fx Fy) as C. unfold Rminus in *. rewrite E2 in C. rewrite Rlt_bool_true in C by now apply small_rnd. tauto.
Qed.

(** the clock of an integration *)
Fixpoint ticks (t0 dt : b64) (n : nat) : b64 * b64 :=
  match n with
  | O => (t0, b64_add t0 dt)
  | S n => let p := ticks t0 dt n in (snd p, b64_add (snd p) (b64_sub (snd p) (fst p)))
  end.
Lemma steps_ticks T M (init : state num64) t0 dt n s new : s_time init = @VNum num64 t0 -> steps T M init (@VNum num64 dt) n = Ok (s, new) ->
  s_time s = @VNum num64 (fst (ticks t0 dt n)) /\ s_time new = @VNum num64 (snd (ticks t0 dt n)).
Proof.
  intros H0. revert s new. induction n as [|n IH]; intros s new H.
  - cbn [steps] in H. destruct (euler T M init (@VNum num64 dt)) as [e|] eqn:E; [|discriminate]. cbn [bind] in H. injection H as <- <-.
    apply euler_facts in E. destruct E as [_ E]. rewrite H0 in E. cbn in E. injection E as <-. now split.
  - cbn [steps] in H. destruct (steps T M init (@VNum num64 dt) n) as [[a b]|] eqn:E; [|discriminate]. cbn [bind fst snd] in H.
    destruct (IH a b eq_refl) as [T1 T2]. apply leapfrog_facts in H. destruct H as [_ [_ [T3 [d [D1 D2]]]]].
    rewrite T1, T2 in D1. cbn in D1. injection D1 as <-. rewrite T2 in D2. cbn in D2. injection D2 as D2. rewrite T3, T2. split; [reflexivity|]. now rewrite <- D2.
Qed.
(** drift of the time step *)
Lemma ticks_drift t0 dt x0 xd X (N : nat) : denotes x0 t0 -> denotes xd dt -> 0 < dt -> Rabs t0 + 2 * (INR N + 2) * dt <= X -> X <= bpow radix2 1000 ->
  (INR N + 2) * X <= 2 ^ 50 * dt ->
  forall n, (n <= N)%nat -> exists a b, denotes (fst (ticks x0 xd n)) a /\ denotes (snd (ticks x0 xd n)) b
    /\ Rabs (b - a - dt) <= (INR n + 1) * (4 * half_ulp * X) /\ Rabs a <= Rabs t0 + 2 * INR n * dt.
Proof.
  intros H0 Hd Pd HX HM HS. assert (U : half_ulp * 2 ^ 53 = 1) by (unfold half_ulp; apply Rinv_l; apply pow_nonzero; lra).
  pose proof half_ulp_bounds as [U0 _]. pose proof half_ulp_half as UH.
  assert (BB : bpow radix2 1000 * 2 = bpow radix2 1001) by (change 2 with (bpow radix2 1); rewrite <- bpow_plus; reflexivity).
  assert (X0 : 0 < X). { pose proof (Rabs_pos t0). pose proof (pos_INR N). nra. }
  induction n as [|n IH]; intros L.
  - cbn [ticks fst snd]. destruct (plus_num x0 xd t0 dt H0 Hd) as (eps & E1 & E2).
    { eapply Rle_trans; [apply Rabs_triang|]. rewrite (Rabs_pos_eq dt) by lra. pose proof (pos_INR N). nra. }
    exists t0, ((t0 + dt) * (1 + eps)). split; [exact H0|]. split; [exact E2|]. cbn [INR]. split; [|lra].
    replace ((t0 + dt) * (1 + eps) - t0 - dt) with ((t0 + dt) * eps) by ring. rewrite Rabs_mult.
    assert (A : Rabs (t0 + dt) <= X). { eapply Rle_trans; [apply Rabs_triang|]. rewrite (Rabs_pos_eq dt) by lra. pose proof (pos_INR N). nra. }
    pose proof (Rabs_pos (t0 + dt)). pose proof (Rabs_pos eps). nra.
  - destruct IH as (a & b & Ha & Hb & Hs & Ha2); [lia|].
    assert (LN : INR (S n) <= INR N) by now apply le_INR. rewrite S_INR in *. pose proof (pos_INR n) as Pn.
    assert (Small : (INR n + 1) * (4 * half_ulp * X) <= dt / 2).
    { assert (4 * half_ulp * 2 ^ 50 = / 2) by (replace (2 ^ 50) with (2 ^ 53 / 8) by (cbn; lra); nra).
      apply Rle_trans with (4 * half_ulp * ((INR N + 2) * X)); [nra|]. apply Rle_trans with (4 * half_ulp * (2 ^ 50 * dt)); [apply Rmult_le_compat_l; lra|]. nra. }
    pose proof (Rle_trans _ _ _ Hs Small) as Hs2. apply Rabs_le_inv in Hs2.
    assert (Sp : Rabs (b - a) <= 3 / 2 * dt) by (apply Rabs_le; lra).
    assert (B2 : Rabs b <= Rabs t0 + 2 * (INR n + 1) * dt).
    { replace b with (a + (b - a)) by ring. eapply Rle_trans; [apply Rabs_triang|]. lra. }
    assert (X2 : Rabs b + 3 * dt <= X) by nra.
    cbn [ticks]. cbv zeta. cbn [fst snd].
    destruct (minus_num _ _ b a Hb Ha) as (e1 & E1 & D1). { pose proof (Rabs_pos b). lra. }
    set (d := (b - a) * (1 + e1)) in *.
    assert (Dd : Rabs (d - (b - a)) <= half_ulp * (2 * dt)).
    { unfold d. replace ((b - a) * (1 + e1) - (b - a)) with ((b - a) * e1) by ring. rewrite Rabs_mult. pose proof (Rabs_pos (b - a)). pose proof (Rabs_pos e1). nra. }
    assert (D2 : Rabs d <= 3 * dt). { replace d with ((d - (b - a)) + (b - a)) by ring. eapply Rle_trans; [apply Rabs_triang|]. nra. }
    destruct (plus_num _ _ b d Hb D1) as (e2 & E2 & D3). { eapply Rle_trans; [apply Rabs_triang|]. lra. }
    exists b, ((b + d) * (1 + e2)). split; [exact Hb|]. split; [exact D3|]. split; [|lra].
    replace ((b + d) * (1 + e2) - b - dt) with ((b - a - dt) + ((d - (b - a)) + (b + d) * e2)) by ring.
    eapply Rle_trans; [apply Rabs_triang|].
    assert (Q : Rabs (d - (b - a) + (b + d) * e2) <= 4 * half_ulp * X).
    { eapply Rle_trans; [apply Rabs_triang|]. rewrite Rabs_mult.
      assert (Rabs (b + d) <= X) by (eapply Rle_trans; [apply Rabs_triang|lra]). pose proof (Rabs_pos (b + d)). pose proof (Rabs_pos e2). pose proof (Rabs_pos b). nra. }
    lra.
Qed.

Lemma denotes_fun x a b : denotes x a -> denotes x b -> a = b.
Proof. intros (_ & _ & <-) (_ & _ & <-). reflexivity. Qed.
Section Drift.
Variables (x0 xd : b64) (t0 dt S : R).
Hypotheses (H0 : denotes x0 t0) (Hd : denotes xd dt) (Pd : 0 < dt) (HS : S <= 2 ^ 24) (HM : S * dt <= 2 ^ 900) (Ht : Rabs t0 <= S * dt).
Lemma ticks_step n : INR n + 2 <= S -> exists a b, denotes (fst (ticks x0 xd n)) a /\ denotes (snd (ticks x0 xd n)) b
    /\ Rabs (b - a - dt) <= (INR n + 1) * S * dt / 2 ^ 49 /\ dt / 2 <= b - a <= 3 / 2 * dt.
Proof.
  intros Hn. pose proof (pos_INR n) as Pn. assert (E24 : 2 ^ 50 = 4 * (2 ^ 24 * 2 ^ 24)) by (cbn; lra). assert (P24 : 0 < 2 ^ 24) by (apply pow_lt; lra).
  destruct (ticks_drift t0 dt x0 xd (3 * S * dt) n H0 Hd Pd) with (n := n) as (a & b & Ha & Hb & Hs & _); try lia.
  - nra.
  - apply Rle_trans with (4 * 2 ^ 900); [lra|]. replace (4 * 2 ^ 900) with (bpow radix2 902).
    + now apply bpow_le.
    + change 902%Z with (2 + Z.of_nat 900)%Z. rewrite bpow_plus. change (bpow radix2 2) with 4. f_equal. rewrite bpow_powerRZ, <- pow_powerRZ. reflexivity.
  - apply Rle_trans with (S * (3 * S * dt)); [apply Rmult_le_compat_r; nra|]. rewrite E24. assert (S * S <= 2 ^ 24 * 2 ^ 24) by nra. nra.
  - exists a, b. split; [exact Ha|]. split; [exact Hb|].
    assert (U : half_ulp * 2 ^ 53 = 1) by (unfold half_ulp; apply Rinv_l; apply pow_nonzero; lra).
    assert (E53 : 2 ^ 53 = 16 * 2 ^ 49) by (cbn; lra). assert (E49 : 2 ^ 49 = 2 * (2 ^ 24 * 2 ^ 24)) by (cbn; lra).
    set (P49 := 2 ^ 49) in *. assert (PP : 0 < P49) by (apply pow_lt; lra).
    assert (UV : half_ulp = / (16 * P49)) by (apply Rmult_eq_reg_r with (2 ^ 53); [rewrite U, E53; field; lra|rewrite E53; lra]).
    assert (A : (INR n + 1) * (4 * half_ulp * (3 * S * dt)) <= (INR n + 1) * S * dt / P49).
    { rewrite UV. replace ((INR n + 1) * (4 * / (16 * P49) * (3 * S * dt))) with (3 / 4 * ((INR n + 1) * S * dt / P49)) by (field; lra).
      assert (0 <= (INR n + 1) * S * dt / P49); [|lra]. apply Rmult_le_pos; [apply Rmult_le_pos; nra|left; now apply Rinv_0_lt_compat]. }
    pose proof (Rle_trans _ _ _ Hs A) as Q. split; [exact Q|].
    assert (B : (INR n + 1) * S * dt / P49 <= dt / 2).
    { apply Rmult_le_reg_r with P49; [assumption|]. unfold Rdiv. rewrite Rmult_assoc, Rinv_l, Rmult_1_r by lra.
      rewrite E49. assert ((INR n + 1) * S <= 2 ^ 24 * 2 ^ 24) by (apply Rmult_le_compat; lra). nra. }
    pose proof (Rle_trans _ _ _ Q B) as Q2. apply Rabs_le_inv in Q2. lra.
Qed.
Lemma ticks_time n : INR n + 2 <= S -> exists a, denotes (fst (ticks x0 xd n)) a
  /\ Rabs (a - (t0 + INR n * dt)) <= INR n ^ 2 * S * dt / 2 ^ 49 /\ t0 + INR n * (dt / 2) <= a.
Proof.
  induction n as [|n IH]; intros Hn.
  - exists t0. split; [exact H0|]. cbn [INR]. split; [|lra]. replace (t0 - (t0 + 0 * dt)) with 0 by ring. rewrite Rabs_R0.
    assert (0 ^ 2 * S * dt / 2 ^ 49 = 0) by (unfold Rdiv; ring). lra.
  - rewrite S_INR in *. pose proof (pos_INR n) as Pn. destruct IH as (a & Ha & E & L); [lra|]. destruct (ticks_step n) as (a' & b & Ha' & Hb & Hs & Hs2); [lra|].
    rewrite (denotes_fun _ _ _ Ha' Ha) in *. exists b. cbn [ticks fst snd]. cbv zeta. cbn [fst snd]. split; [exact Hb|]. split; [|nra].
    replace (b - (t0 + (INR n + 1) * dt)) with ((a - (t0 + INR n * dt)) + (b - a - dt)) by ring. eapply Rle_trans; [apply Rabs_triang|].
    apply Rle_trans with ((INR n ^ 2 + (INR n + 1)) * (S * dt / 2 ^ 49)); [unfold Rdiv in *; lra|].
    assert (0 <= S * dt / 2 ^ 49) by (apply Rmult_le_pos; [nra|left; apply Rinv_0_lt_compat, pow_lt; lra]).
    replace ((INR n + 1) ^ 2 * S * dt / 2 ^ 49) with ((INR n + 1) ^ 2 * (S * dt / 2 ^ 49)) by (unfold Rdiv; ring). apply Rmult_le_compat_r; [assumption|]. nra.
Qed.
End Drift.
Lemma reaches x0 xd t0 dt te S : denotes x0 t0 -> denotes xd dt -> 0 < dt -> 1 <= S <= 2 ^ 21 -> S * dt <= 2 ^ 800 -> Rabs t0 <= S * dt -> Rabs te <= S * dt ->
  8 * S <= 2 ^ 24 /\ 8 * S * dt <= 2 ^ 900 /\ Rabs t0 <= 8 * S * dt /\
  exists n a, INR n + 2 <= 8 * S /\ denotes (fst (ticks x0 xd n)) a /\ te <= a.
Proof.
  intros H0 Hd Pd HS HM Ht He. assert (E : 2 ^ 24 = 8 * 2 ^ 21) by (cbn; lra).
  assert (E2 : 8 * 2 ^ 800 <= 2 ^ 900). { change 8 with (2 * (2 * 2)). replace (2 * (2 * 2)) with (2 ^ 3) by (cbn; lra). rewrite <- pow_add. apply Rle_pow; [lra|lia]. }
  assert (A1 : 8 * S <= 2 ^ 24) by lra. assert (A2 : 8 * S * dt <= 2 ^ 900) by nra. assert (A3 : Rabs t0 <= 8 * S * dt) by (pose proof (Rabs_pos t0); nra).
  split; [exact A1|]. split; [exact A2|]. split; [exact A3|].
  set (n := Z.to_nat (up (4 * S))). pose proof (archimed (4 * S)) as [U1 U2].
  assert (N : INR n = IZR (up (4 * S))). { unfold n. rewrite INR_IZR_INZ, Z2Nat.id; [reflexivity|]. apply le_IZR. lra. }
  destruct (ticks_time x0 xd t0 dt (8 * S) H0 Hd Pd A1 A2 A3 n) as (a & Ha & _ & L); [lra|].
  exists n, a. split; [lra|]. split; [exact Ha|]. apply Rabs_le_inv in Ht, He. rewrite N in L. nra.
Qed.
