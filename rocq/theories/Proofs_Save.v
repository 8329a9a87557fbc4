(** Integrations: saved states, longer runs, time units. *)
From Coq Require Export String.
From Verif Require Import Base Model_Grid Model_Time Model_Spectral Model_State Model_Run.
From Verif Require Import Spec_Grid Spec_Spectral Spec_State Spec_Instance Spec_Run.
From Verif Require Import Proofs_Base Proofs_Grid Proofs_Spectral Proofs_Instance Proofs_State Proofs_Run Proofs_Times.
From Coquelicot Require Import Coquelicot.
From Coq Require Import List Lia Lra.
Open Scope R_scope.

(** C33 *)
Lemma run_extends {K} T (M : bmodel K) init dt se tend1 tend2 fuel1 fuel2 f1 r1 f2 r2 :
  (forall x, py_lt x tend1 = Ok true -> py_lt x tend2 = Ok true) ->
  (py_lt tend2 (s_time init) = Ok true -> py_lt tend1 (s_time init) = Ok true) ->
  run T M fuel1 init dt tend1 se = Ok (f1, r1) -> run T M fuel2 init dt tend2 se = Ok (f2, r2) ->
  (exists rest, items r2 = items r1 ++ rest)
  /\ (py_lt tend1 (s_time init) = Ok true /\ f1 = init
      \/ exists N1 N2, (N1 <= N2)%nat /\ trajectory T M init dt N1 f1 /\ trajectory T M init dt N2 f2).
Proof.
  intros Hm Hp R1 R2. apply run_sound in R1. apply run_sound in R2.
  destruct R1 as [[P1 [-> ->]]|[P1 [N1 [T1 [F1 [B1 ->]]]]]].
  - split; [|now left]. destruct R2 as [[_ [_ ->]]|[_ [N2 [_ [_ [_ ->]]]]]]; cbn [items app]; [now exists nil|eauto].
  - destruct R2 as [[P2 _]|[P2 [N2 [T2 [F2 [B2 ->]]]]]]; [rewrite (Hp P2) in P1; discriminate|].
    assert (L : (N1 <= N2)%nat).
    { destruct (Nat.le_gt_cases N1 N2) as [L|L]; [exact L|]. rewrite (Hm _ (B1 N2 f2 L T2)) in F2. discriminate. }
    split; [|right; eauto 6]. cbn [items]. replace N2 with (N1 + (N2 - N1))%nat by lia.
    destruct (saved_app T M init dt se 0 N1 (N2 - N1) se) as [ts ->]. rewrite map_app. cbn [app]. eauto.
Qed.

Lemma SF_lt_le_trans x y z : SFltb x y = true -> SFleb y z = true -> SFltb x z = true.
Proof.
  unfold SFltb, SFleb, SFcompare.
  destruct x as [s1|s1| |s1 m1 e1], y as [s2|s2| |s2 m2 e2], z as [s3|s3| |s3 m3 e3];
    try discriminate; try (destruct s1, s2; try discriminate); try (destruct s3; try discriminate); try reflexivity;
    try (destruct s2; try discriminate); try reflexivity.
  all: intros H1 H2.
  all: repeat match goal with
  | H : context [match (?a ?= ?b)%Z with _ => _ end] |- _ => destruct (Z.compare_spec a b); try discriminate
  | |- context [match (?a ?= ?b)%Z with _ => _ end] => destruct (Z.compare_spec a b); try reflexivity; try lia
  end; subst; try lia.
  all: change (Pos.compare_cont Eq) with Pos.compare in *.
  all: repeat match goal with
  | H : context [(?a ?= ?b)%positive] |- _ => destruct (Pos.compare_spec a b); try discriminate
  | |- context [(?a ?= ?b)%positive] => destruct (Pos.compare_spec a b); try reflexivity; try lia
  end; subst; cbn in *; try discriminate; try lia.
Qed.

(** C32 *)
Section Saving.
Context (T : sphfam) (M : bmodel numR) (init : state numR).
Variables (t0 dt s : R).
Notation num x := (@VNum numR x).
Notation at_step := (at_step T M init (num dt)).
Notation saved := (saved T M init (num dt) (num s)).
Hypothesis Hdt : 0 < dt.

Lemma first_unique x m n : first_step t0 dt x m -> first_step t0 dt x n -> m = n.
Proof.
  intros [_ [A1 A2]] [_ [B1 B2]]. destruct (Nat.lt_trichotomy m n) as [L|[E|L]]; [|exact E|].
  - specialize (B2 m L). lra.
  - specialize (A2 n L). lra.
Qed.

Lemma saved_char (Hs : dt <= s) : forall c n k,
  (forall m, (m <= n + c)%nat -> s_time (at_step m) = num (t0 + INR m * dt)) ->
  t0 + INR n * dt < INR k * s ->
  forall j m, nth_error (saved n c (num (INR k * s))) j = Some m
    <-> (m <= n + c)%nat /\ first_step t0 dt (INR (k + j) * s) m.
Proof.
  induction c as [|c IH]; intros n k HT Hk j m.
  - cbn [Proofs_Run.saved]. split; [destruct j; discriminate|]. intros [L [_ [F _]]]. exfalso.
    assert (INR m <= INR n) by (apply le_INR; lia). rewrite plus_INR in F. pose proof (pos_INR j). nra.
  - cbn [Proofs_Run.saved]. rewrite (HT (S n)) by lia. rewrite py_lt_R. cbn [py_le is_true].
    change (n_le numR) with Rleb. change (n_zero numR) with 0.
    replace (Rltb 0 s) with true by (symmetry; apply Rltb_true; lra). cbn [andb].
    assert (HT' : forall q, (q <= S n + c)%nat -> s_time (at_step q) = num (t0 + INR q * dt)) by (intros; apply HT; lia).
    destruct (Rleb (INR k * s) (t0 + INR (S n) * dt)) eqn:EB.
    + apply Rleb_true in EB. cbn [py_add get]. change (n_add numR) with Rplus.
      replace (INR k * s + s) with (INR (S k) * s) by (rewrite S_INR; ring).
      assert (Hk' : t0 + INR (S n) * dt < INR (S k) * s) by (rewrite !S_INR in *; nra).
      assert (FS : first_step t0 dt (INR k * s) (S n)).
      { split; [lia|]. split; [exact EB|]. intros q Hq. assert (INR q <= INR n) by (apply le_INR; lia). nra. }
      destruct j as [|j]; cbn [nth_error].
      * rewrite Nat.add_0_r. split.
        -- intros E. injection E as <-. split; [lia|exact FS].
        -- intros [_ F]. f_equal. exact (first_unique _ _ _ FS F).
      * rewrite (IH (S n) (S k) HT' Hk' j m). replace (S k + j)%nat with (k + S j)%nat by lia.
        replace (S n + c)%nat with (n + S c)%nat by lia. reflexivity.
    + apply Rleb_false in EB. rewrite (IH (S n) k HT' EB j m). replace (S n + c)%nat with (n + S c)%nat by lia. reflexivity.
Qed.

Lemma run_saves fuel tend f l : s_time init = num t0 -> dt <= s -> t0 < s ->
  run T M fuel init (num dt) (num tend) (num s) = Ok (f, AStateList l) ->
  exists N ns l', trajectory T M init (num dt) N f /\ l = init :: l'
    /\ Forall2 (trajectory T M init (num dt)) ns l'
    /\ forall k n, nth_error ns k = Some n <-> (n <= N)%nat /\ first_step t0 dt (INR (S k) * s) n.
Proof.
  intros H0 Hs Ht HR. apply run_sound in HR. destruct HR as [[_ [_ HR]]|[_ [N [HT [_ [_ HR]]]]]]; [discriminate|].
  injection HR as ->. exists N, (saved 0 N (num s)), (map at_step (saved 0 N (num s))).
  split; [exact HT|]. split; [reflexivity|]. pose proof (clock_R init t0 dt H0) as HC.
  assert (HA : forall m, (m <= N)%nat -> trajectory T M init (num dt) m (at_step m)).
  { intros m Hm. destruct HT as [new HT]. destruct (steps_le _ _ _ _ _ m _ HT Hm) as [[a b] Hab].
    rewrite (at_step_eq _ _ _ _ _ _ _ Hab). now exists b. }
  split.
  - assert (Q : forall k, In k (saved 0 N (num s)) -> (k <= N)%nat).
    { intros k Hk. apply saved_range in Hk. lia. }
    induction (saved 0 N (num s)) as [|k ks IH]; [constructor|]. cbn [map]. constructor.
    + apply HA, Q. now left.
    + apply IH. intros q Hq. apply Q. now right.
  - intros k n. assert (E : num s = num (INR 1 * s)) by (apply numeq; cbn [INR]; ring).
    assert (Q : t0 + INR 0 * dt < INR 1 * s) by (cbn [INR]; lra).
    pose proof (saved_char Hs N 0 1 (fun m Hm => clock_traj _ _ _ _ _ HC _ _ (HA m Hm)) Q k n) as QQ.
    rewrite <- E in QQ. exact QQ.
Qed.
Lemma run_saves_none fuel tend f l : s <= 0 ->
  run T M fuel init (num dt) (num tend) (num s) = Ok (f, AStateList l) -> l = init :: nil.
Proof.
  intros Hs HR. apply run_sound in HR. destruct HR as [[_ [_ HR]]|[_ [N [_ [_ [_ HR]]]]]]; [discriminate|].
  injection HR as ->. apply f_equal.
  assert (Q : forall c n ts, saved n c ts = nil).
  { induction c as [|c IH]; intros n ts; [reflexivity|]. cbn [Proofs_Run.saved]. rewrite py_lt_R.
    replace (Rltb (n_zero numR) s) with false; [apply IH|]. symmetry. apply Rltb_false. cbn. lra. }
  now rewrite Q.
Qed.
End Saving.

(** a start time of 100: a state is saved after one second although save_every is 10 *)
Lemma saves_refuted T (M : bmodel numR) init : forcing_ok M -> s_time init = @VNum numR 100 ->
  exists f, run T M 2 init (@VNum numR 1) (@VNum numR 101) (@VNum numR 10) = Ok (f, AStateList [init; f])
    /\ s_time f = @VNum numR 101.
Proof.
  intros HF H0. pose proof (clock_R init 100 1 H0) as HC.
  destruct (run_R_ok T M init 100 1 101 10 HF H0 ltac:(lra) ltac:(lra)) as [N [H1 [H2 H3]]].
  assert (N = 1%nat) as ->.
  { destruct N as [|[|N]]; [cbn in H2; lra|reflexivity|]. specialize (H1 1%nat ltac:(lia)). cbn in H1. lra. }
  exists (at_step T M init (@VNum numR 1) 1). rewrite H3 by lia.
  destruct (clock_ok T M init (@VNum numR 1) _ HC 1 HF) as [[s new] HS].
  assert (ET : s_time (at_step T M init (@VNum numR 1) 1) = @VNum numR 101).
  { rewrite (at_step_eq _ _ _ _ _ _ _ HS). destruct (clock_times _ _ _ _ _ HC _ _ _ HS) as [-> _]. apply numeq. cbn. ring. }
  split; [|exact ET]. f_equal. f_equal. f_equal. f_equal. cbn [saved]. rewrite ET, py_lt_R. cbn [py_le is_true].
  change (n_le numR) with Rleb. change (n_zero numR) with 0.
  replace (Rltb 0 10) with true by (symmetry; apply Rltb_true; lra).
  replace (Rleb 10 101) with true by (symmetry; apply Rleb_true; lra). reflexivity.
Qed.

(** C37 *)
Lemma run_second {K} T (M : bmodel K) fuel init dt tend se f r : run T M fuel init dt tend se = Ok (f, r) ->
  (py_lt tend (s_time init) = Ok false -> exists l, r = AStateList (init :: l))
  /\ (py_lt tend (s_time init) = Ok true -> f = init /\ r = PlainList (init :: nil)).
Proof.
  intros HR. apply run_sound in HR. destruct HR as [[P [-> ->]]|[P [N [_ [_ [_ ->]]]]]]; rewrite P; split; try discriminate; eauto.
Qed.

(** C38 *)
Section Units.
Context (T : sphfam) (A B : bmodel numR).
Hypothesis HAB : same_forcing A B.
Notation num x := (@VNum numR x).

Inductive rel {X} (P : X -> X -> Prop) : res X -> res X -> Prop :=
| rel_ok x y : P x y -> rel P (Ok x) (Ok y)
| rel_err e : rel P (Err e) (Err e).
Lemma rel_bind {X Y} (P : X -> X -> Prop) (Q : Y -> Y -> Prop) a b f g :
  rel P a b -> (forall x y, P x y -> rel Q (f x) (g y)) -> rel Q (bind a f) (bind b g).
Proof. intros [x y H|e] HF; cbn; [now apply HF|constructor]. Qed.

Lemma rel_add a a' d d' : same_unit a a' -> same_interval d d' -> rel same_unit (py_add a d) (py_add a' d').
Proof.
  intros [x] [y]. cbn. constructor. replace (IZR x / 1000000 + IZR y / 1000000) with (IZR (x + y) / 1000000); [constructor|].
  rewrite plus_IZR. field.
Qed.
Lemma rel_sub a a' b b' : same_unit a a' -> same_unit b b' -> rel same_interval (py_sub a b) (py_sub a' b').
Proof.
  intros [x] [y]. cbn. constructor. replace (IZR x / 1000000 - IZR y / 1000000) with (IZR (x - y) / 1000000); [constructor|].
  rewrite minus_IZR. field.
Qed.
Lemma rel_lt a a' b b' : same_unit a a' -> same_unit b b' -> py_lt a b = py_lt a' b'.
Proof.
  intros [x] [y]. cbn. f_equal. symmetry. destruct (Z.ltb_spec x y) as [L|L].
  - apply Rltb_true. apply IZR_lt in L. lra.
  - apply Rltb_false. apply IZR_le in L. lra.
Qed.
Lemma rel_seconds d d' : same_interval d d' -> to_seconds d = to_seconds d'.
Proof. now intros [x]. Qed.
Lemma rel_tendency s s' : same_fields s s' -> pv_tendency_spectral T A s = pv_tendency_spectral T B s'.
Proof.
  intros H. pose proof H as [H1 [H2 H3]]. unfold pv_tendency_spectral.
  assert (E : s_pv_flux_spectral T s = s_pv_flux_spectral T s').
  { unfold s_pv_flux_spectral, s_pv, s_u, s_v, s_invert_pv, s_vorticity_spectral. now rewrite H1, H2. }
  rewrite E, H1. destruct HAB as [_ [_ [_ HF]]]. destruct (m_rhs A) as [f|], (m_rhs B) as [h|]; try contradiction; [|reflexivity].
  now rewrite (HF s s' H).
Qed.
Lemma rel_diffusion g d x : apply_diffusion T A g d x = apply_diffusion T B g d x.
Proof. destruct HAB as [H1 [H2 [H3 _]]]. unfold apply_diffusion. now rewrite H1, H2, H3. Qed.

Lemma rel_euler s s' d d' : same_fields s s' -> same_interval d d' -> rel same_fields (euler T A s d) (euler T B s' d').
Proof.
  intros H Hd. pose proof H as [H1 [H2 H3]]. unfold euler. rewrite (rel_seconds _ _ Hd), (rel_tendency _ _ H).
  destruct (to_seconds d'); cbn [bind]; [|constructor]. destruct (pv_tendency_spectral T B s'); cbn [bind]; [|constructor].
  apply (rel_bind same_unit); [now apply rel_add|]. intros x y Hxy. constructor. rewrite H1, H2, rel_diffusion. now repeat split.
Qed.
Lemma rel_leapfrog a a' b b' nu : same_fields a a' -> same_fields b b' ->
  rel (fun p q => same_fields (fst p) (fst q) /\ same_fields (snd p) (snd q)) (leapfrog T A a b nu) (leapfrog T B a' b' nu).
Proof.
  intros Ha Hb. pose proof Ha as [A1 [A2 A3]]. pose proof Hb as [B1 [B2 B3]]. unfold leapfrog.
  apply (rel_bind same_interval); [now apply rel_sub|]. intros d d' Hd.
  rewrite (rel_seconds _ _ Hd), (rel_tendency _ _ Hb).
  destruct (to_seconds d'); cbn [bind]; [|constructor]. destruct (pv_tendency_spectral T B b'); cbn [bind]; [|constructor].
  apply (rel_bind same_unit); [now apply rel_add|]. intros x y Hxy. constructor. cbn [fst snd].
  rewrite A2, B1, B2, rel_diffusion. now repeat split.
Qed.
Lemma rel_loop tend tend' se : same_unit tend tend' -> se <= 0 -> forall fuel a a' b b' l l' ts ts',
  same_fields a a' -> same_fields b b' -> Forall2 same_fields l l' ->
  rel (fun p q => same_fields (fst p) (fst q) /\ Forall2 same_fields (snd p) (snd q))
    (run_loop T A fuel tend (num se) a b l ts) (run_loop T B fuel tend' (num se) a' b' l' ts').
Proof.
  intros Ht Hs. induction fuel as [|fuel IH]; intros a a' b b' l l' ts ts' Ha Hb Hl; [constructor|]. cbn [run_loop].
  rewrite (rel_lt (s_time a) (s_time a') tend tend') by (auto; apply Ha).
  destruct (py_lt (s_time a') tend') as [[|]|]; cbn [bind]; [|now constructor|constructor].
  apply (rel_bind _ _ _ _ _ _ (rel_leapfrog a a' b b' default_nu Ha Hb)). intros [x y] [x' y'] [H1 H2]. cbn [fst snd] in *.
  rewrite !py_lt_R. replace (Rltb (n_zero numR) se) with false; [cbn [bind]; now apply IH|].
  symmetry. apply Rltb_false. cbn. lra.
Qed.
Lemma rel_run fuel init init' dt dt' tend tend' se : same_fields init init' -> same_interval dt dt' -> same_unit tend tend' -> se <= 0 ->
  same_result (run T A fuel init dt tend (num se)) (run T B fuel init' dt' tend' (num se)).
Proof.
  intros Hi Hd Ht Hs. unfold run. rewrite (rel_lt tend tend' (s_time init) (s_time init')) by (auto; apply Hi).
  destruct (py_lt tend' (s_time init')) as [[|]|]; cbn [bind]; [|destruct (rel_euler init init' dt dt' Hi Hd) as [x y Hxy|e]; cbn [bind]|constructor].
  - apply sr_plain; [exact Hi|]. constructor; [exact Hi|constructor].
  - destruct (rel_loop tend tend' se Ht Hs fuel init init' x y (init :: nil) (init' :: nil) (num se) (num se)) as [[f l] [f' l'] [H1 H2]|e];
      auto; cbn [bind fst snd] in *; [|constructor].
    assert (Q : rel (Forall2 same_fields) (statelist_of l) (statelist_of l')).
    { destruct H2 as [|q q' l l' Hq Hl]; [constructor; constructor|]. unfold statelist_of, passert.
      replace (forallb (fun s' => grid_eqb (s_grid q) (s_grid s')) (q :: l)) with (forallb (fun s' => grid_eqb (s_grid q') (s_grid s')) (q' :: l')).
      - destruct (forallb _ _); constructor. now constructor.
      - assert (F : Forall2 same_fields (q :: l) (q' :: l')) by now constructor. destruct Hq as [<- _]. clear -F.
        induction F as [|a b u v Ha F IH]; [reflexivity|]. cbn [forallb]. rewrite IH. destruct Ha as [-> _]. reflexivity. }
    destruct Q; cbn [bind]; constructor; auto.
  - constructor.
Qed.
End Units.

Lemma mixed_tend T (M : bmodel numR) fuel init dt se (d : Z) (t : R) :
  (s_time init = VDate d -> run T M fuel init dt (@VNum numR t) se = Err TypeError)
  /\ (s_time init = @VNum numR t -> run T M fuel init dt (VDate d) se = Err TypeError).
Proof. split; intros H; unfold run; rewrite H; reflexivity. Qed.
Lemma mixed_dt_date T (M : bmodel numR) fuel init se (d tend : Z) (x : R) : forcing_ok M ->
  s_time init = VDate d -> (d <= tend)%Z -> run T M fuel init (@VNum numR x) (VDate tend) se = Err TypeError.
Proof.
  intros HF H Ht. unfold run. rewrite H. cbn [py_lt bind]. destruct (Z.ltb_spec tend d); [lia|]. unfold euler. cbn [to_seconds bind].
  destruct (tendency_ok T M init HF) as [y ->]. cbn [bind]. now rewrite H.
Qed.
Lemma mixed_dt_num T (M : bmodel numR) fuel init se (t tend : R) us : forcing_ok M ->
  s_time init = @VNum numR t -> t <= tend -> run T M fuel init (VDelta us) (@VNum numR tend) se = Err TypeError.
Proof.
  intros HF H Ht. unfold run. rewrite H, py_lt_R. replace (Rltb tend t) with false by (symmetry; now apply Rltb_false).
  cbn [bind]. unfold euler. cbn [to_seconds bind].
  destruct (tendency_ok T M init HF) as [y ->]. cbn [bind]. now rewrite H.
Qed.
Lemma mixed_save T (M : bmodel numR) fuel init (d us tend : Z) (s : R) : forcing_ok M ->
  s_time init = VDate d -> (d < tend)%Z -> 0 < s ->
  run T M (S fuel) init (VDelta us) (VDate tend) (@VNum numR s) = Err TypeError.
Proof.
  intros HF H Ht Hs. pose proof (clock_date init d us H) as HC. unfold run. rewrite H. cbn [py_lt bind].
  destruct (Z.ltb_spec tend d); [lia|].
  destruct (clock_ok T M init (VDelta us) _ HC 1 HF) as [[s1 new1] HS1].
  pose proof HS1 as HS2. apply steps_prev in HS2. destruct HS2 as [[i e] [HE HL]].
  pose proof HE as HE0. cbn [steps] in HE0. inv_bind HE0. injection HE0 as <- <-. cbn [bind fst snd] in *.
  cbn [run_loop]. rewrite H. cbn [py_lt bind]. destruct (Z.ltb_spec d tend); [|lia]. rewrite HL. cbn [bind].
  change (n_lt numR (n_zero numR) s) with (Rltb 0 s). replace (Rltb 0 s) with true by (symmetry; now apply Rltb_true).
  cbn [bind]. destruct (clock_times _ _ _ _ _ HC _ _ _ HS1) as [-> _]. reflexivity.
Qed.
