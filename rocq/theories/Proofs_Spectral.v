(** Lemmas about spectral arrays and the spectral solvers. *)
From Coq Require Export String.
From Verif Require Export Base Model_Grid Model_Spectral Spec_Grid Spec_Spectral.
From Verif Require Import Proofs_Base Proofs_Grid.
From Coquelicot Require Import Coquelicot.
From Coq Require Import Lia Lra.
Open Scope R_scope.

Lemma C1_ne : RtoC 1 <> RtoC 0.
Proof. intros E. apply RtoC_inj in E. lra. Qed.
Lemma Cdiv_1 (c : C) : (c / RtoC 1)%C = c.
Proof. field. exact C1_ne. Qed.

(** index *)
Lemma idx_unfold T m len : (m + S len = S T)%nat ->
  flat_map (fun m => seq m (S T - m)) (seq m (S len))
  = (seq m (S len) ++ flat_map (fun m => seq m (S T - m)) (seq (S m) len))%list.
Proof. intros H. cbn [seq flat_map]. f_equal. change (m :: seq (S m) len) with (seq m (S len)). f_equal. lia. Qed.

Lemma idx_nth T : forall len m k, (m + len = S T)%nat ->
  nth k (flat_map (fun m => seq m (S T - m)) (seq m len)) 0%nat = degree_from m len k.
Proof.
  induction len as [|len IH]; intros m k H.
  - cbn. now destruct k.
  - rewrite idx_unfold by lia. cbn [degree_from]. destruct (Nat.ltb_spec k (S len)) as [L|L].
    + rewrite app_nth1 by (rewrite seq_length; lia). now rewrite seq_nth by lia.
    + rewrite app_nth2 by (rewrite seq_length; lia). rewrite seq_length. rewrite IH by lia. reflexivity.
Qed.

Lemma idx_length T : forall len m, (m + len = S T)%nat ->
  (2 * length (flat_map (fun m => seq m (S T - m)) (seq m len)) = len * (len + 1))%nat.
Proof.
  induction len as [|len IH]; intros m H; [reflexivity|].
  rewrite idx_unfold by lia. rewrite app_length, seq_length. specialize (IH (S m)). lia.
Qed.

Lemma specindxn_nth T k : nth k (specindxn T) 0%nat = degree T k.
Proof. apply idx_nth. lia. Qed.

Lemma specindxn_length T : length (specindxn T) = nspec T.
Proof.
  unfold specindxn, nspec. pose proof (idx_length T (S T) 0 ltac:(lia)) as H.
  replace ((T + 1) * (T + 2))%nat with (S T * (S T + 1))%nat by lia. rewrite <- H.
  rewrite Nat.mul_comm. symmetry. apply Nat.div_mul. lia.
Qed.

Lemma degree_from_pos : forall len m k, (0 < m)%nat -> (2 * k < len * (len + 1))%nat -> (0 < degree_from m len k)%nat.
Proof.
  induction len as [|len IH]; intros m k Hm Hk; [lia|].
  cbn [degree_from]. destruct (Nat.ltb_spec k (S len)); [lia|]. apply IH; lia.
Qed.

Lemma degree_0 T : degree T 0 = 0%nat.
Proof. reflexivity. Qed.
Lemma nspec2 T : (2 * nspec T = (T + 1) * (T + 2))%nat.
Proof. rewrite <- specindxn_length. unfold specindxn. rewrite (idx_length T (S T) 0) by lia. lia. Qed.
Lemma nspec_pos T : (0 < nspec T)%nat.
Proof. pose proof (nspec2 T). nia. Qed.

Lemma degree_pos T k : (0 < k < nspec T)%nat -> (0 < degree T k)%nat.
Proof.
  intros [H0 H1]. unfold degree. cbn [degree_from]. destruct (Nat.ltb_spec k (S T)); [lia|].
  apply degree_from_pos; [lia|]. pose proof (nspec2 T). nia.
Qed.

Lemma eig_length g : length (laplacian_eigenvalues g) = nspec (g_ntrunc g).
Proof. unfold laplacian_eigenvalues. now rewrite map_length, specindxn_length. Qed.

Lemma eig_nth g k : g_rsphere g <> 0 -> (k < nspec (g_ntrunc g))%nat ->
  nth k (laplacian_eigenvalues g) 0 = eigenvalue (g_rsphere g) (degree (g_ntrunc g) k).
Proof.
  intros Hr Hk. unfold laplacian_eigenvalues.
  rewrite (nth_map_lt _ _ _ 0%nat) by (rewrite specindxn_length; lia).
  rewrite specindxn_nth. unfold eigenvalue. field. exact Hr.
Qed.

Lemma eigenvalue_nonneg r n : 0 < r -> 0 <= eigenvalue r n.
Proof. intros H. unfold eigenvalue. apply Rcomplements.Rdiv_le_0_compat; [pose proof (pos_INR n); nra|nra]. Qed.
Lemma eigenvalue_pos r n : 0 < r -> (0 < n)%nat -> 0 < eigenvalue r n.
Proof. intros H Hn. unfold eigenvalue. apply Rdiv_lt_0_compat; [pose proof (lt_0_INR n Hn); nra|nra]. Qed.
Lemma eigenvalue_le r n m : 0 < r -> (n <= m)%nat -> eigenvalue r n <= eigenvalue r m.
Proof.
  intros H Hn. unfold eigenvalue, Rdiv. apply Rmult_le_compat_r.
  - left. apply Rinv_0_lt_compat. nra.
  - pose proof (le_INR _ _ Hn). pose proof (pos_INR n). nra.
Qed.
Lemma eigenvalue_0 r : eigenvalue r 0 = 0.
Proof. unfold eigenvalue. cbn. unfold Rdiv. ring. Qed.

(** coefficient-wise reasoning *)
Lemma coef_map2 (f : C -> C -> C) x y k : length x = length y -> (k < length x)%nat ->
  coef (map2 f x y) k = f (coef x k) (coef y k).
Proof. intros H Hk. unfold coef. apply map2_nth; lia. Qed.
Lemma coef_map2R (f : C -> R -> C) x y k : length x = length y -> (k < length x)%nat ->
  coef (map2 f x y) k = f (coef x k) (nth k y 0).
Proof. intros H Hk. unfold coef. apply map2_nth; lia. Qed.
Lemma coef_map (f : C -> C) x k : (k < length x)%nat -> coef (map f x) k = f (coef x k).
Proof. intros H. unfold coef. now apply nth_map_lt. Qed.
Lemma spec_ext x y : length x = length y -> (forall k, (k < length x)%nat -> coef x k = coef y k) -> x = y.
Proof. intros H1 H2. apply (list_eq_nth (RtoC 0)); auto. Qed.
Lemma coef_zero n k : coef (repeat (RtoC 0) n) k = RtoC 0.
Proof. unfold coef. apply nth_repeat. Qed.

Lemma sadd_length x y : length x = length y -> length (sadd x y) = length x.
Proof. intros H. unfold sadd. rewrite map2_length. lia. Qed.
Lemma ssub_length x y : length x = length y -> length (ssub x y) = length x.
Proof. intros H. unfold ssub. rewrite map2_length. lia. Qed.
Lemma sscale_length c x : length (sscale c x) = length x.
Proof. apply map_length. Qed.
Lemma szeros_length x : length (szeros_like x) = length x.
Proof. apply map_length. Qed.
Lemma sopp_length x : length (sopp x) = length x.
Proof. apply map_length. Qed.
Lemma coef_sadd x y k : length x = length y -> (k < length x)%nat -> coef (sadd x y) k = (coef x k + coef y k)%C.
Proof. apply coef_map2. Qed.
Lemma coef_ssub x y k : length x = length y -> (k < length x)%nat -> coef (ssub x y) k = (coef x k - coef y k)%C.
Proof. apply coef_map2. Qed.
Lemma coef_sscale c x k : (k < length x)%nat -> coef (sscale c x) k = (RtoC c * coef x k)%C.
Proof. apply (coef_map (Cmult (RtoC c))). Qed.
Lemma coef_sopp x k : (k < length x)%nat -> coef (sopp x) k = (- coef x k)%C.
Proof. apply (coef_map Copp). Qed.
Lemma coef_szeros x k : coef (szeros_like x) k = RtoC 0.
Proof. unfold coef, szeros_like. revert k; induction x; intros [|k]; cbn; auto. Qed.
Lemma szeros_repeat x : szeros_like x = repeat (RtoC 0) (length x).
Proof. induction x; cbn; [reflexivity|]. now f_equal. Qed.
Lemma coef_over x k : (length x <= k)%nat -> coef x k = RtoC 0.
Proof. intros. unfold coef. now apply nth_overflow. Qed.

Lemma laplace_length g x : length x = nspec (g_ntrunc g) -> length (laplace_spectral g x) = nspec (g_ntrunc g).
Proof. intros H. unfold laplace_spectral. rewrite map2_length, eig_length. lia. Qed.
Lemma poisson_length g x p : length x = nspec (g_ntrunc g) -> length (solve_poisson_spectral g x p) = nspec (g_ntrunc g).
Proof.
  intros H. unfold solve_poisson_spectral. rewrite app_length, map2_length, firstn_length, !skipn_length, szeros_length, eig_length.
  pose proof (nspec_pos (g_ntrunc g)). lia.
Qed.
Lemma diffusion_length g x c d o : length x = nspec (g_ntrunc g) -> length (solve_diffusion_spectral g x c d o) = nspec (g_ntrunc g).
Proof. intros H. unfold solve_diffusion_spectral. rewrite map2_length, eig_length. lia. Qed.

Lemma laplace_coef g x k : g_rsphere g <> 0 -> length x = nspec (g_ntrunc g) -> (k < nspec (g_ntrunc g))%nat ->
  coef (laplace_spectral g x) k = (RtoC (- eigenvalue (g_rsphere g) (degree (g_ntrunc g) k)) * coef x k)%C.
Proof.
  intros Hr H Hk. unfold laplace_spectral. rewrite coef_map2R by (rewrite ?eig_length; lia).
  rewrite eig_nth by auto. rewrite RtoC_opp. ring.
Qed.
Lemma diffusion_coef g x c d o k : g_rsphere g <> 0 -> length x = nspec (g_ntrunc g) -> (k < nspec (g_ntrunc g))%nat ->
  coef (solve_diffusion_spectral g x c d o) k
  = (coef x k / RtoC (1 + d * c * eigenvalue (g_rsphere g) (degree (g_ntrunc g) k) ^ o))%C.
Proof.
  intros Hr H Hk. unfold solve_diffusion_spectral. rewrite coef_map2R by (rewrite ?eig_length; lia).
  now rewrite eig_nth by auto.
Qed.
Lemma nth_skipn {A} n (l : list A) k d : nth k (skipn n l) d = nth (n + k) l d.
Proof. revert n; induction l; intros [|n]; cbn; auto; now destruct k. Qed.
Lemma poisson_coef g x p k : g_rsphere g <> 0 -> length x = nspec (g_ntrunc g) -> (0 < k < nspec (g_ntrunc g))%nat ->
  coef (solve_poisson_spectral g x p) k
  = (- coef x k / RtoC (eigenvalue (g_rsphere g) (degree (g_ntrunc g) k) + p))%C.
Proof.
  intros Hr H Hk. unfold solve_poisson_spectral, coef. pose proof (nspec_pos (g_ntrunc g)).
  rewrite app_nth2 by (rewrite firstn_length, szeros_length; lia).
  rewrite firstn_length, szeros_length. replace (Nat.min 1 (length x)) with 1%nat by lia.
  rewrite (map2_nth _ _ _ _ (RtoC 0) 0) by (rewrite !skipn_length, ?eig_length; lia).
  rewrite !nth_skipn. replace (1 + (k - 1))%nat with k by lia. now rewrite eig_nth by (auto; lia).
Qed.
Lemma poisson_coef0 g x p : coef (solve_poisson_spectral g x p) 0 = RtoC 0.
Proof.
  unfold solve_poisson_spectral, coef. destruct x as [|c x]; [|reflexivity].
  reflexivity.
Qed.

Section Grid.
Variables (res rs om : R) (nt : option Z) (g : grid).
Hypothesis Hg : mk_grid res rs om nt = Ok g.
Let Hrs : 0 < g_rsphere g.
Proof. pose proof (mk_grid_facts _ _ _ _ _ Hg) as F. rewrite (gf_rs _ _ _ _ F). exact (gf_rs_pos _ _ _ _ F). Qed.
Let Hne : g_rsphere g <> 0. Proof. lra. Qed.
Notation N := (nspec (g_ntrunc g)).
Notation ev k := (eigenvalue (g_rsphere g) (degree (g_ntrunc g) k)).

Lemma laplacian_spec x : length x = N ->
  length (laplace_spectral g x) = N
  /\ forall k, (k < N)%nat -> coef (laplace_spectral g x) k = (RtoC (- ev k) * coef x k)%C.
Proof. intros H. split; [now apply laplace_length|]. intros. now apply laplace_coef. Qed.

Lemma poisson_inverts x : length x = N ->
  (length (laplace_spectral g (solve_poisson_spectral g x 0)) = N
    /\ coef (laplace_spectral g (solve_poisson_spectral g x 0)) 0 = RtoC 0
    /\ forall k, (0 < k < N)%nat -> coef (laplace_spectral g (solve_poisson_spectral g x 0)) k = coef x k)
  /\ (length (solve_poisson_spectral g (laplace_spectral g x) 0) = N
    /\ coef (solve_poisson_spectral g (laplace_spectral g x) 0) 0 = RtoC 0
    /\ forall k, (0 < k < N)%nat -> coef (solve_poisson_spectral g (laplace_spectral g x) 0) k = coef x k)
  /\ forall op_add, length (solve_poisson_spectral g x op_add) = N /\ coef (solve_poisson_spectral g x op_add) 0 = RtoC 0.
Proof.
  intros H. pose proof (nspec_pos (g_ntrunc g)) as HN.
  assert (Hp : forall k, (0 < k < N)%nat -> RtoC (ev k) <> RtoC 0).
  { intros k Hk E. apply RtoC_inj in E. pose proof (eigenvalue_pos (g_rsphere g) _ Hrs (degree_pos _ _ Hk)). lra. }
  split; [|split].
  - split; [apply laplace_length, poisson_length, H|]. split.
    + rewrite laplace_coef by (auto using poisson_length). rewrite poisson_coef0. ring.
    + intros k Hk. rewrite laplace_coef by (auto using poisson_length; lia). rewrite poisson_coef by auto.
      rewrite Rplus_0_r, RtoC_opp. field. now apply Hp.
  - split; [apply poisson_length, laplace_length, H|]. split; [apply poisson_coef0|].
    intros k Hk. rewrite poisson_coef by (auto using laplace_length). rewrite laplace_coef by (auto; lia).
    rewrite Rplus_0_r, RtoC_opp. field. now apply Hp.
  - intros p. split; [now apply poisson_length|apply poisson_coef0].
Qed.

Lemma helmholtz x p : length x = N ->
  (forall n, (0 < n <= g_ntrunc g)%nat -> eigenvalue (g_rsphere g) n + p <> 0) ->
  let f := solve_poisson_spectral g x p in
  forall k, (0 < k < N)%nat -> (coef (laplace_spectral g f) k - RtoC p * coef f k)%C = coef x k.
Proof.
  intros H Hp f k Hk. unfold f. rewrite laplace_coef by (auto using poisson_length; lia).
  rewrite poisson_coef by auto.
  assert (D : (degree (g_ntrunc g) k <= g_ntrunc g)%nat).
  { assert (Q : forall len m k, (m + len = S (g_ntrunc g))%nat -> (degree_from m len k <= g_ntrunc g)%nat).
    { induction len as [|len IH]; intros m j Hm; [cbn; lia|]. cbn [degree_from].
      destruct (Nat.ltb_spec j (S len)); [lia|]. apply IH. lia. }
    apply Q. lia. }
  assert (E : (RtoC (ev k) + RtoC p)%C <> RtoC 0).
  { rewrite <- RtoC_plus. intros E. apply RtoC_inj in E. apply (Hp (degree (g_ntrunc g) k)); [|exact E].
    split; [apply degree_pos; lia|exact D]. }
  rewrite RtoC_opp, RtoC_plus. field. exact E.
Qed.

Lemma helmholtz_mean x p : length x = N ->
  let f := solve_poisson_spectral g x p in
  (coef (laplace_spectral g f) 0 - RtoC p * coef f 0)%C = RtoC 0.
Proof.
  intros H f. pose proof (nspec_pos (g_ntrunc g)). unfold f. rewrite laplace_coef by (auto using poisson_length).
  rewrite poisson_coef0. ring.
Qed.

Lemma diffusion_step f coeff dt order : length f = N -> 0 <= dt * coeff ->
  let h := solve_diffusion_spectral g f coeff dt order in
  length h = N
  /\ (forall k, (k < N)%nat ->
        (coef h k + RtoC (dt * coeff) * coef (Nat.iter order (fun x => sopp (laplace_spectral g x)) h) k)%C = coef f k)
  /\ (forall k, (k < N)%nat -> Cmod (coef h k) <= Cmod (coef f k))
  /\ (forall k l, (k < N)%nat -> (l < N)%nat -> (degree (g_ntrunc g) k <= degree (g_ntrunc g) l)%nat ->
        Cmod (coef h l) * Cmod (coef f k) <= Cmod (coef h k) * Cmod (coef f l))
  /\ ((1 <= order)%nat -> coef h 0 = coef f 0)
  /\ (dt * coeff = 0 -> h = f).
Proof.
  intros H Hd h. unfold h. pose proof (nspec_pos (g_ntrunc g)) as HN.
  assert (He : forall k, 0 <= ev k ^ order) by (intros; apply pow_le, eigenvalue_nonneg, Hrs).
  assert (Hq : forall k, 1 <= 1 + dt * coeff * ev k ^ order).
  { intros k. specialize (He k). pose proof (Rmult_le_pos _ _ Hd He). lra. }
  assert (Hq' : forall k, RtoC (1 + dt * coeff * ev k ^ order) <> RtoC 0).
  { intros k E. apply RtoC_inj in E. specialize (Hq k). lra. }
  assert (Hi : forall k n y, length y = N -> (k < N)%nat ->
     length (Nat.iter n (fun x => sopp (laplace_spectral g x)) y) = N
     /\ coef (Nat.iter n (fun x => sopp (laplace_spectral g x)) y) k = (RtoC (ev k ^ n) * coef y k)%C).
  { intros k n y Hy Hk. induction n as [|n [IH1 IH2]]; [split; [exact Hy|cbn [Nat.iter pow nat_rect]; ring]|].
    change (Nat.iter (S n) (fun x => sopp (laplace_spectral g x)) y)
      with (sopp (laplace_spectral g (Nat.iter n (fun x => sopp (laplace_spectral g x)) y))).
    split; [rewrite sopp_length; now apply laplace_length|].
    rewrite coef_sopp by (rewrite laplace_length; auto). rewrite laplace_coef by auto. rewrite IH2.
    cbn [pow]. rewrite RtoC_opp, RtoC_mult. ring. }
  assert (Hm : forall k, (k < N)%nat -> Cmod (coef (solve_diffusion_spectral g f coeff dt order) k)
                 = Cmod (coef f k) / (1 + dt * coeff * ev k ^ order)).
  { intros k Hk. rewrite diffusion_coef by auto. unfold Cdiv. rewrite Cmod_mult, Cmod_inv by auto.
    rewrite Cmod_R, Rabs_right by (specialize (Hq k); lra). reflexivity. }
  split; [now apply diffusion_length|]. split; [|split; [|split; [|split]]].
  - intros k Hk. destruct (Hi k order (solve_diffusion_spectral g f coeff dt order)) as [_ E];
      [now apply diffusion_length|exact Hk|]. rewrite E. rewrite diffusion_coef by auto. specialize (Hq' k).
    rewrite RtoC_plus, !RtoC_mult in Hq'. rewrite RtoC_plus, !RtoC_mult.
    generalize dependent (RtoC (ev k ^ order)). intros. field. exact Hq'.
  - intros k Hk. rewrite Hm by auto. pose proof (Cmod_ge_0 (coef f k)). specialize (Hq k).
    apply Rle_div_l; nra.
  - intros k l Hk Hl D. rewrite !Hm by auto.
    pose proof (eigenvalue_le _ _ _ Hrs D) as E. pose proof (eigenvalue_nonneg (g_rsphere g) (degree (g_ntrunc g) k) Hrs) as E0.
    assert (EP : ev k ^ order <= ev l ^ order) by (apply pow_incr; lra).
    set (a := Cmod (coef f k)). set (b := Cmod (coef f l)).
    assert (0 <= a) by apply Cmod_ge_0. assert (0 <= b) by apply Cmod_ge_0.
    pose proof (Hq k) as Qk. pose proof (Hq l) as Ql.
    assert (L : 1 + dt * coeff * ev k ^ order <= 1 + dt * coeff * ev l ^ order).
    { pose proof (Rmult_le_compat_l _ _ _ Hd EP). lra. }
    replace (b / (1 + dt * coeff * ev l ^ order) * a) with (a * b * / (1 + dt * coeff * ev l ^ order)) by (unfold Rdiv; ring).
    replace (a / (1 + dt * coeff * ev k ^ order) * b) with (a * b * / (1 + dt * coeff * ev k ^ order)) by (unfold Rdiv; ring).
    apply Rmult_le_compat_l; [now apply Rmult_le_pos|]. apply Rinv_le_contravar; lra.
  - intros Ho. rewrite diffusion_coef by auto. rewrite degree_0, eigenvalue_0. rewrite (pow_i order) by lia.
    rewrite Rmult_0_r, Rplus_0_r. apply Cdiv_1.
  - intros E. apply spec_ext; [rewrite diffusion_length; auto|]. rewrite diffusion_length by auto.
    intros k Hk. rewrite diffusion_coef by auto. rewrite E, Rmult_0_l, Rplus_0_r. apply Cdiv_1.
Qed.
End Grid.
