(** Lazy evaluation of State fields is unobservable. *)
From Coq Require Export String.
From Verif Require Import Base Model_Grid Model_Time Model_Spectral Model_State Model_Lazy Spec_State.
From Verif Require Import Proofs_Base.
Open Scope R_scope.

Section P.
Context {K : numtype} (T : sphfam) (D : diagnostics) (s : state K).
Notation G := (s_grid s).

(** object whose filled slots agree with the state it represents *)
Record good (o : object K) : Prop := {
  gd_grid : o_grid o = G;
  gd_time : o_time o = s_time s;
  gd_pvs : o_pv_spectral o = s_pvs s;
  gd_pv : forall x, o_pv o = Some x -> x = s_pv T s;
  gd_u : forall x, o_u o = Some x -> x = s_u T s;
  gd_v : forall x, o_v o = Some x -> x = s_v T s;
  gd_psi : forall x, o_streamfunction o = Some x -> x = s_streamfunction T s;
  gd_pvz : forall x, o_pv_zonalized o = Some x -> d_zonalize D G (s_pv T s) = Ok x;
  gd_falwa : forall x, o_falwa o = Some x -> d_falwa D G (s_pv T s) = Ok x
}.

Lemma good_fresh : good (fresh s).
Proof. constructor; cbn; try reflexivity; intros x H; discriminate. Qed.

(** a computation that returns [r] on every good object and keeps it good *)
Definition ok {A} (m : comp K A) (r : res A) : Prop := forall o, good o -> fst (m o) = r /\ good (snd (m o)).

Lemma ok_ret A (a : A) : ok (ret a) (Ok a).
Proof. intros o H. auto. Qed.
Lemma ok_raise A (r : res A) : ok (raise_res r) r.
Proof. intros o H. auto. Qed.
Lemma ok_bind A B (m : comp K A) (k : A -> comp K B) r r' :
  ok m r -> (forall a, r = Ok a -> ok (k a) (r' a)) -> ok (cbind m k) (bind r r').
Proof.
  intros Hm Hk o Ho. destruct (Hm o Ho) as [E1 E2]. unfold cbind. destruct (m o) as [x o'] eqn:E. cbn in E1, E2. subst x.
  destruct r as [a|e]; cbn; [now apply Hk|auto].
Qed.
Lemma ok_grid : ok read_grid (Ok G).
Proof. intros o H. cbn. now rewrite (gd_grid _ H). Qed.
Lemma ok_pvs : ok read_pv_spectral (Ok (s_pvs s)).
Proof. intros o H. cbn. now rewrite (gd_pvs _ H). Qed.
Lemma ok_pv : ok (read_pv T) (Ok (s_pv T s)).
Proof.
  intros o H. unfold read_pv. destruct (o_pv o) as [x|] eqn:E; cbn.
  - now rewrite <- (gd_pv _ H _ E).
  - rewrite (gd_grid _ H), (gd_pvs _ H). split; [reflexivity|]. destruct H; constructor; cbn; auto.
    intros x [= <-]. reflexivity.
Qed.
Lemma ok_vs : ok (read_vorticity_spectral T) (Ok (s_vorticity_spectral T s)).
Proof.
  intros o H. unfold read_vorticity_spectral. cbn. rewrite (gd_grid _ H), (gd_pvs _ H). auto.
Qed.
Lemma ok_invert o : good o -> fst (invert_pv T o) = Ok tt /\ good (snd (invert_pv T o))
  /\ o_u (snd (invert_pv T o)) = Some (s_u T s) /\ o_v (snd (invert_pv T o)) = Some (s_v T s).
Proof.
  intros H. unfold invert_pv. cbn. rewrite (gd_grid _ H), (gd_pvs _ H).
  split; [reflexivity|]. split; [|auto]. destruct H; constructor; cbn; auto.
  - intros x [= <-]. reflexivity.
  - intros x [= <-]. reflexivity.
Qed.
Lemma ok_u : ok (read_u T) (Ok (s_u T s)).
Proof.
  intros o H. unfold read_u. destruct (o_u o) as [x|] eqn:E.
  - cbn. now rewrite <- (gd_u _ H _ E).
  - destruct (ok_invert o H) as [E1 [E2 [E3 E4]]]. unfold cbind. destruct (invert_pv T o) as [r o'].
    cbn in *. subst r. rewrite E3. auto.
Qed.
Lemma ok_v : ok (read_v T) (Ok (s_v T s)).
Proof.
  intros o H. unfold read_v. destruct (o_v o) as [x|] eqn:E.
  - cbn. now rewrite <- (gd_v _ H _ E).
  - destruct (ok_invert o H) as [E1 [E2 [E3 E4]]]. unfold cbind. destruct (invert_pv T o) as [r o'].
    cbn in *. subst r. rewrite E4. auto.
Qed.
Lemma ok_psi : ok (read_streamfunction T) (Ok (s_streamfunction T s)).
Proof.
  intros o H. unfold read_streamfunction. destruct (o_streamfunction o) as [x|] eqn:E; cbn.
  - now rewrite <- (gd_psi _ H _ E).
  - rewrite (gd_grid _ H), (gd_pvs _ H). split; [reflexivity|]. destruct H; constructor; cbn; auto.
    intros x [= <-]. reflexivity.
Qed.
Lemma ok_zon : ok (read_pv_zonalized T D) (d_zonalize D G (s_pv T s)).
Proof.
  intros o H. unfold read_pv_zonalized. destruct (o_pv_zonalized o) as [x|] eqn:E.
  - cbn. now rewrite (gd_pvz _ H _ E).
  - unfold cbind. cbn. rewrite (gd_grid _ H). destruct (ok_pv o H) as [E1 E2].
    destruct (read_pv T o) as [r o']. cbn in E1, E2. subst r.
    destruct (d_zonalize D G (s_pv T s)) as [x|e] eqn:EZ; cbn; [|auto].
    split; [reflexivity|]. destruct E2; constructor; cbn; auto. intros y [= <-]. exact EZ.
Qed.
Lemma ok_falwa : ok (read_falwa T D) (d_falwa D G (s_pv T s)).
Proof.
  intros o H. unfold read_falwa. destruct (o_falwa o) as [x|] eqn:E.
  - cbn. now rewrite (gd_falwa _ H _ E).
  - unfold cbind. cbn. rewrite (gd_grid _ H). destruct (ok_pv o H) as [E1 E2].
    destruct (read_pv T o) as [r o']. cbn in E1, E2. subst r.
    destruct (d_falwa D G (s_pv T s)) as [x|e] eqn:EZ; cbn; [|auto].
    split; [reflexivity|]. destruct E2; constructor; cbn; auto. intros y [= <-]. exact EZ.
Qed.

Notation value := (field_value T D s).
Lemma ok_eq A (m : comp K A) r r' : ok m r -> r = r' -> ok m r'.
Proof. now intros H <-. Qed.
Lemma bind_assoc A B C (r : res A) (f : A -> res B) (g : B -> res C) :
  bind (bind r f) g = bind r (fun a => bind (f a) g).
Proof. now destruct r. Qed.

Ltac step := eapply ok_bind; [first [apply ok_grid|apply ok_pv|apply ok_pvs|apply ok_vs|apply ok_u|apply ok_v|apply ok_psi|apply ok_zon|apply ok_falwa|apply ok_raise]|intros ? ?].

Lemma ok_read a : ok (read T D a) (value a).
Proof.
  destruct a; unfold read, wrap.
  all: try (eapply ok_eq; [eapply ok_bind;
    [first [apply ok_pv|apply ok_pvs|apply ok_vs|apply ok_u|apply ok_v|apply ok_psi|apply ok_zon|apply ok_falwa]|intros; apply ok_ret]|]; reflexivity).
  - eapply ok_eq; [eapply ok_bind; [unfold read_pv_flux_spectral; step; step; step; step; step; apply ok_ret|intros; apply ok_ret]|].
    reflexivity.
  - eapply ok_eq; [eapply ok_bind; [unfold read_vorticity; step; step; apply ok_ret|intros; apply ok_ret]|]. reflexivity.
  - eapply ok_eq; [eapply ok_bind; [unfold read_vorticity; step; step; apply ok_ret|intros; apply ok_ret]|]. reflexivity.
  - eapply ok_eq; [eapply ok_bind; [unfold read_enstrophy; step; apply ok_ret|intros; apply ok_ret]|]. reflexivity.
  - eapply ok_eq; [eapply ok_bind; [unfold read_eddy_enstrophy; step; step; apply ok_ret|intros; apply ok_ret]|].
    cbn. unfold s_eddy_enstrophy, eddy_enstrophy_of, zonal_anomaly. now rewrite map2_diag.
  - eapply ok_eq; [eapply ok_bind; [unfold read_energy; step; step; step; step; apply ok_ret|intros; apply ok_ret]|]. reflexivity.
  - eapply ok_eq; [eapply ok_bind; [unfold read_fawa; step; apply ok_ret|intros; apply ok_ret]|]. cbn. rewrite bind_assoc. reflexivity.
  - eapply ok_eq; [eapply ok_bind; [unfold read_falwa_filtered; step; step; step; step; apply ok_raise|intros; apply ok_ret]|].
    cbn. rewrite !bind_assoc. destruct (d_dominant D G (s_v T s)); [|reflexivity]. cbn. now rewrite bind_assoc.
  - eapply ok_eq; [eapply ok_bind; [unfold read_v_envelope_hilbert; step; apply ok_raise|intros; apply ok_ret]|]. reflexivity.
  - eapply ok_eq; [eapply ok_bind; [unfold read_stationary_wavenumber; step; step; step; apply ok_raise|intros; apply ok_ret]|]. reflexivity.
Qed.

Lemma good_after h o : good o -> good (after T D o h).
Proof.
  revert o. induction h as [|a h IH]; intros o H; cbn; [exact H|]. apply IH, (ok_read a o H).
Qed.

Lemma lazy_unobservable history a :
  let o := after T D (fresh s) history in
  fst (read T D a o) = fst (read T D a (fresh s))
  /\ o_pv_spectral o = s_pvs s /\ o_grid o = s_grid s /\ o_time o = s_time s.
Proof.
  intros o. pose proof (good_after history _ good_fresh) as H. fold o in H.
  split; [|destruct H; auto].
  now rewrite (proj1 (ok_read a o H)), (proj1 (ok_read a _ good_fresh)).
Qed.
Lemma lazy_values history a : fst (read T D a (after T D (fresh s) history)) = value a.
Proof. apply ok_read, good_after, good_fresh. Qed.
End P.
