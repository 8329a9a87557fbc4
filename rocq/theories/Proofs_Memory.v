(** Arrays in memory: nothing is modified, programs compute what the pure model computes. *)
From Coq Require Export String.
From Verif Require Import Base Model_Grid Model_Time Model_Spectral Model_State Model_Lazy Model_Run Model_RHS Model_Memory.
From Verif Require Import Spec_State Spec_Memory Proofs_Base.
From Coq Require Import List Lia.
Import ListNotations.
Open Scope R_scope.

(** ** lists *)
Lemma update_length A i (x : A) l : List.length (update i x l) = List.length l.
Proof. revert i. induction l as [|y l IH]; intros [|i]; cbn; auto. Qed.
Lemma update_same A i (x : A) l : (i < List.length l)%nat -> nth_error (update i x l) i = Some x.
Proof. revert i. induction l as [|y l IH]; intros [|i] H; cbn in *; try lia; [reflexivity|apply IH; lia]. Qed.
Lemma update_other A i j (x : A) l : i <> j -> nth_error (update i x l) j = nth_error l j.
Proof. revert i j. induction l as [|y l IH]; intros [|i] [|j] H; cbn; try reflexivity; [congruence|apply IH; congruence]. Qed.
Lemma update_app_ge A i (x : A) l k : (List.length l <= i)%nat -> update i x (l ++ k) = l ++ update (i - List.length l) x k.
Proof.
  revert i. induction l as [|y l IH]; intros i H; cbn in *; [now replace (i - 0)%nat with i by lia|].
  destruct i as [|i]; [lia|]. cbn. f_equal. apply IH. lia.
Qed.
Lemma nth_error_lt A (l : list A) i x : nth_error l i = Some x -> (i < List.length l)%nat.
Proof. intros H. apply nth_error_Some. congruence. Qed.
Lemma nth_error_app_l A (l k : list A) i x : nth_error l i = Some x -> nth_error (l ++ k) i = Some x.
Proof. intros H. rewrite nth_error_app1; [exact H|]. now apply nth_error_lt in H. Qed.
Lemma nth_error_end A (l : list A) x : nth_error (l ++ [x]) (List.length l) = Some x.
Proof. rewrite nth_error_app2 by lia. now rewrite Nat.sub_diag. Qed.

Section P.
Context {K : numtype} (T : sphfam) (D : diagnostics).
Notation mem := (memory K).
Implicit Types (m : memory K) (o : stored K).

Lemma bind_done A B (p : prog K A) (k : A -> prog K B) m a m' : p m = (Ok a, m') -> pbind p k m = k a m'.
Proof. intros H. unfold pbind. now rewrite H. Qed.
Lemma bind_attempt A B (r : res A) (k : A -> prog K B) m :
  pbind (attempt r) k m = match r with Ok a => k a m | Err e => (Err e, m) end.
Proof. now destruct r. Qed.
Lemma load_eq (m : mem) a x : holds m a x -> load a m = (Ok x, m).
Proof. unfold load, holds. now intros ->. Qed.
Lemma load_mat_eq (m : mem) a f : holds m a (FM f) -> load_mat a m = (Ok f, m).
Proof. intros H. unfold load_mat. now rewrite (bind_done _ _ _ _ _ _ _ (load_eq _ _ _ H)). Qed.
Lemma load_spec_eq (m : mem) a f : holds m a (FS f) -> load_spec a m = (Ok f, m).
Proof. intros H. unfold load_spec. now rewrite (bind_done _ _ _ _ _ _ _ (load_eq _ _ _ H)). Qed.
Lemma get_object_eq (m : mem) i o : nth_error (objects m) i = Some o -> get_object i m = (Ok o, m).
Proof. unfold get_object. now intros ->. Qed.

(** ** growth of the memory *)
Lemma stays_refl o : stays o o.
Proof. constructor; try reflexivity; now intros a. Qed.
Lemma stays_trans o1 o2 o3 : stays o1 o2 -> stays o2 o3 -> stays o1 o3.
Proof. intros [] []. constructor; try congruence; intros a H; auto. Qed.
Lemma extends_refl (m : mem) : extends m m.
Proof. constructor; [exists []; now rewrite app_nil_r| |]; intros i o H; eauto using stays_refl. Qed.
Lemma extends_len (m : mem) m' : extends m m' -> (List.length (arrays m) <= List.length (arrays m'))%nat.
Proof. intros [[l E] _ _]. rewrite E, app_length. lia. Qed.
Lemma extends_trans m1 m2 m3 : extends m1 m2 -> extends m2 m3 -> extends m1 m3.
Proof.
  intros A B. pose proof (extends_len _ _ A) as L. destruct A as [[l E] A2 A3], B as [[k F] B2 B3]. constructor.
  - exists (l ++ k). rewrite F, E. now rewrite app_assoc.
  - intros i o H. destruct (A2 i o H) as [o' [H1 H2]]. destruct (B2 i o' H1) as [o'' [H3 H4]]. eauto using stays_trans.
  - intros i o a H I. destruct (B3 i o a H I) as [I'|[o' [H1 H2]]]; [left; lia|]. exact (A3 i o' a H1 H2).
Qed.
Lemma extends_holds (m m' : mem) a x : extends m m' -> holds m a x -> holds m' a x.
Proof. intros [[l E] _ _] H. unfold holds in *. rewrite E. now apply nth_error_app_l. Qed.
Lemma extends_shows (m : mem) m' i s : extends m m' -> shows m i s -> shows m' i s.
Proof.
  intros E [o [x [H1 [H2 ->]]]]. destruct (ext_objects _ _ E i o H1) as [o' [H3 S]]. exists o', x.
  rewrite (st_pvs _ _ S), (st_grid _ _ S), (st_time _ _ S). eauto using extends_holds.
Qed.
Lemma extends_preserved (m : mem) m' : extends m m' -> preserved m m'.
Proof. intros E. split; intros; [eapply extends_holds|eapply extends_shows]; eassumption. Qed.
Lemma extends_unshared (m : mem) m' a : extends m m' -> unshared m a -> unshared m' a.
Proof.
  intros E [L U]. split; [apply extends_len in E; lia|]. intros i o H I.
  destruct (ext_slots _ _ E i o a H I) as [I'|[o' [H1 H2]]]; [lia|]. exact (U i o' H1 H2).
Qed.
Lemma shows_fun (m : mem) i s s' : shows m i s -> shows m i s' -> s = s'.
Proof. intros [o [x [H1 [H2 ->]]]] [o' [x' [H3 [H4 ->]]]]. rewrite H1 in H3. injection H3 as <-. unfold holds in *. congruence. Qed.

Lemma slot_ok_ext (m : mem) m' s a x : (forall b y, holds m b y -> holds m' b y) -> slot_ok T D m s a x -> slot_ok T D m' s a x.
Proof. intros E H b Hb. destruct (H b Hb) as [y [H1 H2]]. eauto. Qed.

(** ** adding arrays and filling slots *)
Definition slot_step (m : mem) (l : list fieldval) (s : state K) (a : attribute) (x x' : option nat) : Prop :=
  x' = x \/ (x = None /\ exists k y, x' = Some (List.length (arrays m) + k)%nat /\ nth_error l k = Some y /\ field_value T D s a = Ok y).
Record step_ok (m : mem) (l : list fieldval) (s : state K) (o o' : stored K) : Prop := {
  sp_grid : t_grid o' = t_grid o;
  sp_time : t_time o' = t_time o;
  sp_pvs : t_pv_spectral o' = t_pv_spectral o;
  sp_pv : slot_step m l s Apv (t_pv o) (t_pv o');
  sp_u : slot_step m l s Au (t_u o) (t_u o');
  sp_v : slot_step m l s Av (t_v o) (t_v o');
  sp_psi : slot_step m l s Astreamfunction (t_streamfunction o) (t_streamfunction o');
  sp_zon : slot_step m l s Apv_zonalized (t_pv_zonalized o) (t_pv_zonalized o');
  sp_lwa : slot_step m l s Afalwa (t_falwa o) (t_falwa o');
  sp_uv : t_u o' = None <-> t_v o' = None
}.
Lemma slot_step_stays (m : mem) l s a x x' : slot_step m l s a x x' -> slot_stays x x'.
Proof. intros [->|[-> _]]; intros b; [auto|discriminate]. Qed.
Lemma slot_step_ok (m : mem) l s a x x' objs : slot_step m l s a x x' -> slot_ok T D m s a x ->
  slot_ok T D (mkMemory (arrays m ++ l) objs) s a x'.
Proof.
  intros [->|[-> [k [y [-> [H1 H2]]]]]] H.
  - eapply slot_ok_ext; [|exact H]. intros b z. unfold holds. cbn. apply nth_error_app_l.
  - intros b [= <-]. exists y. split; [exact H2|]. unfold holds. cbn. rewrite nth_error_app2 by lia.
    now replace (List.length (arrays m) + k - List.length (arrays m))%nat with k by lia.
Qed.
Lemma in_slots (o : stored K) a : In a (slots o) <->
  a = t_pv_spectral o \/ t_pv o = Some a \/ t_u o = Some a \/ t_v o = Some a \/ t_streamfunction o = Some a
  \/ t_pv_zonalized o = Some a \/ t_falwa o = Some a.
Proof.
  unfold slots. cbn [flat_map]. rewrite app_nil_r.
  assert (E : forall (x : option nat) l, In a ((match x with Some b => [b] | None => [] end) ++ l) <-> x = Some a \/ In a l).
  { intros [b|] l; cbn; [|intuition discriminate]. split; intros [H|H]; auto; left; congruence. }
  assert (E' : forall x : option nat, In a (match x with Some b => [b] | None => [] end) <-> x = Some a).
  { intros [b|]; cbn; [|intuition discriminate]. split; [intros [H|[]]; congruence|intros [= ->]; auto]. }
  cbn [In]. rewrite !E, E'. split; intros [H|H]; auto.
Qed.
Lemma slot_step_new (m : mem) l s a x x' b : slot_step m l s a x x' -> x' = Some b -> x = Some b \/ (List.length (arrays m) <= b)%nat.
Proof. intros [->|[-> [k [y [-> _]]]]]; [auto|]. intros [= <-]. right. lia. Qed.

Lemma fill (m : mem) l i o o' s : sound T D m -> nth_error (objects m) i = Some o -> shows m i s -> step_ok m l s o o' ->
  let m' := mkMemory (arrays m ++ l) (update i o' (objects m)) in sound T D m' /\ extends m m'.
Proof.
  intros S Ho Hs P. cbn zeta. set (m' := mkMemory _ _).
  assert (L : (i < List.length (objects m))%nat) by now apply nth_error_lt in Ho.
  assert (E : extends m m').
  { constructor; [now exists l| |].
    - intros j oj Hj. cbn. destruct (Nat.eq_dec i j) as [<-|N].
      + exists o'. rewrite update_same by exact L. split; [reflexivity|]. rewrite Ho in Hj. injection Hj as <-.
        destruct P. constructor; eauto using slot_step_stays.
      + exists oj. rewrite update_other by exact N. split; [exact Hj|apply stays_refl].
    - intros j oj a Hj I. cbn in Hj. destruct (Nat.eq_dec i j) as [<-|N].
      + rewrite update_same in Hj by exact L. injection Hj as <-. apply in_slots in I. destruct P.
        assert (Z : forall f c, slot_step m l s c (f o) (f o') -> f o' = Some a -> (forall b, f o = Some b -> In b (slots o)) ->
          (List.length (arrays m) <= a)%nat \/ exists o0, nth_error (objects m) i = Some o0 /\ In a (slots o0)).
        { intros f c H1 H2 H3. destruct (slot_step_new _ _ _ _ _ _ _ H1 H2) as [H4|H4]; [right|now left]. eauto. }
        destruct I as [I|[I|[I|[I|[I|[I|I]]]]]].
        * right. exists o. split; [exact Ho|]. apply in_slots. left. congruence.
        * eapply (Z t_pv); eauto. intros b Hb. apply in_slots. auto.
        * eapply (Z t_u); eauto. intros b Hb. apply in_slots. auto.
        * eapply (Z t_v); eauto. intros b Hb. apply in_slots. auto.
        * eapply (Z t_streamfunction); eauto. intros b Hb. apply in_slots. auto 7.
        * eapply (Z t_pv_zonalized); eauto. intros b Hb. apply in_slots. auto 8.
        * eapply (Z t_falwa); eauto. intros b Hb. apply in_slots. auto 8.
      + rewrite update_other in Hj by exact N. right. eauto. }
  split; [|exact E]. intros j oj Hj. cbn in Hj. destruct (Nat.eq_dec i j) as [<-|N].
  - rewrite update_same in Hj by exact L. injection Hj as <-. exists s. destruct (S i o Ho) as [s' [Hs' Q]].
    rewrite (shows_fun _ _ _ _ Hs' Hs) in Q. destruct Q as [Q1 [Q2 [Q3 [Q4 [Q5 [Q6 Q7]]]]]].
    split; [exact (extends_shows _ _ _ _ E Hs)|]. destruct P. repeat split; eauto using slot_step_ok; apply sp_uv0.
  - rewrite update_other in Hj by exact N. destruct (S j oj Hj) as [s' [Hs' Q]]. exists s'.
    split; [exact (extends_shows _ _ _ _ E Hs')|]. destruct Q as [Q1 [Q2 [Q3 [Q4 [Q5 [Q6 Q7]]]]]].
    assert (F : forall b y, holds m b y -> holds m' b y) by (intros; eauto using extends_holds).
    repeat split; eauto using slot_ok_ext; apply Q7.
Qed.
Lemma grow (m : mem) l : sound T D m -> let m' := mkMemory (arrays m ++ l) (objects m) in sound T D m' /\ extends m m'.
Proof.
  intros S. cbn zeta. set (m' := mkMemory _ _).
  assert (E : extends m m').
  { constructor; [now exists l| |]; intros i o; cbn; eauto using stays_refl. }
  split; [|exact E]. intros j oj Hj. cbn in Hj. destruct (S j oj Hj) as [s' [Hs' Q]]. exists s'.
  split; [exact (extends_shows _ _ _ _ E Hs')|]. destruct Q as [Q1 [Q2 [Q3 [Q4 [Q5 [Q6 Q7]]]]]].
  assert (F : forall b y, holds m b y -> holds m' b y) by (intros; eauto using extends_holds).
  repeat split; eauto using slot_ok_ext; apply Q7.
Qed.

(** ** outcome of a program *)
Notation outcome := (outcome T D).
Lemma out_bind A B A' B' (m : mem) (p : prog K A) (k : A -> prog K A') (r : res B) (r' : B -> res B') P Q :
  outcome m (p m) r P ->
  (forall m' a b, sound T D m' -> extends m m' -> P m' a b -> outcome m' (k a m') (r' b) Q) ->
  outcome m (pbind p k m) (bind r r') Q.
Proof.
  intros [S [E H]] F. unfold pbind. destruct (p m) as [[a|e] m'] eqn:Ep; destruct r as [b|e']; cbn in *; try contradiction.
  - destruct (F m' a b S E H) as [S' [E' H']]. split; [exact S'|]. split; [exact (extends_trans _ _ _ E E')|exact H'].
  - subst e'. split; [exact S|]. split; [exact E|reflexivity].
Qed.
Lemma out_bindE A B A' B' (m : mem) (p : prog K A) (k : A -> prog K A') (r : res B) (r' : B -> res B') P Q :
  outcome m (p m) r P ->
  (forall m' a b, r = Ok b -> sound T D m' -> extends m m' -> P m' a b -> outcome m' (k a m') (r' b) Q) ->
  outcome m (pbind p k m) (bind r r') Q.
Proof.
  intros [S [E H]] F. unfold pbind. destruct (p m) as [[a|e] m'] eqn:Ep; destruct r as [b|e']; cbn in *; try contradiction.
  - destruct (F m' a b eq_refl S E H) as [S' [E' H']]. split; [exact S'|]. split; [exact (extends_trans _ _ _ E E')|exact H'].
  - subst e'. split; [exact S|]. split; [exact E|reflexivity].
Qed.
Lemma out_bind0 A A' B' (m : mem) (p : prog K A) (k : A -> prog K A') (r : res B') Q (m' : mem) a :
  p m = (Ok a, m') -> m' = m -> outcome m (k a m) r Q -> outcome m (pbind p k m) r Q.
Proof. intros H -> F. now rewrite (bind_done _ _ _ _ _ _ _ H). Qed.
Lemma out_attempt A (m : mem) (r : res A) : sound T D m -> outcome m (attempt r m) r (fun m' a b => a = b /\ m' = m).
Proof. intros S. split; [exact S|]. split; [apply extends_refl|]. now destruct r. Qed.
Lemma out_done A B (m : mem) (a : A) (b : B) (P : mem -> A -> B -> Prop) : sound T D m -> P m a b -> outcome m (done a m) (Ok b) P.
Proof. intros S H. split; [exact S|]. split; [apply extends_refl|exact H]. Qed.
Lemma out_mono A B (m : mem) (q : res A * mem) (r : res B) (P Q : mem -> A -> B -> Prop) :
  outcome m q r P -> (forall m' a b, sound T D m' -> extends m m' -> P m' a b -> Q m' a b) -> outcome m q r Q.
Proof.
  intros [S [E H]] F. split; [exact S|]. split; [exact E|]. destruct (fst q), r; auto.
Qed.
Lemma out_eq A B (m : mem) (q : res A * mem) (r r' : res B) P : outcome m q r P -> r = r' -> outcome m q r' P.
Proof. now intros H <-. Qed.

(** a new array that nobody keeps *)
Definition newly (m : mem) (x : fieldval) (m' : mem) (a : nat) : Prop :=
  holds m' a x /\ (List.length (arrays m) <= a)%nat /\ unshared m' a.
Lemma sound_slots (m : mem) i o a : sound T D m -> nth_error (objects m) i = Some o -> In a (slots o) -> (a < List.length (arrays m))%nat.
Proof.
  intros S Ho I. destruct (S i o Ho) as [s [[o1 [x [H1 [H2 _]]]] Q]]. rewrite Ho in H1. injection H1 as <-.
  apply in_slots in I. destruct Q as [Q1 [Q2 [Q3 [Q4 [Q5 [Q6 Q7]]]]]].
  assert (Z : forall c f, slot_ok T D m s c f -> f = Some a -> (a < List.length (arrays m))%nat).
  { intros c f H E. destruct (H a E) as [y [_ Hy]]. now apply nth_error_lt in Hy. }
  destruct I as [->|[I|[I|[I|[I|[I|I]]]]]]; [now apply nth_error_lt in H2|eapply Z; [|exact I]; eassumption..].
Qed.
Lemma out_alloc (m : mem) x : sound T D m -> outcome m (alloc x m) (Ok x) (fun m' a y => newly m y m' a).
Proof.
  intros S. destruct (grow m [x] S) as [S' E]. split; [exact S'|]. split; [exact E|]. cbn.
  split; [unfold holds; cbn; apply nth_error_end|]. split; [lia|]. split; [cbn; rewrite app_length; cbn; lia|].
  intros i o Ho I. pose proof (sound_slots m i o _ S Ho I). lia.
Qed.

(** ** reading the slots *)
Definition gives (m : mem) (s : state K) (q : res nat * mem) (r : res fieldval) : Prop :=
  outcome m q r (fun m' a y => holds m' a y).
Lemma shows_object (m : mem) i s : shows m i s -> exists o, nth_error (objects m) i = Some o
  /\ t_grid o = s_grid s /\ t_time o = s_time s /\ holds m (t_pv_spectral o) (FS (s_pvs s)).
Proof. intros [o [x [H1 [H2 ->]]]]. exists o. auto. Qed.
Lemma slot_of (m : mem) i s o : sound T D m -> shows m i s -> nth_error (objects m) i = Some o ->
  slot_ok T D m s Apv (t_pv o) /\ slot_ok T D m s Au (t_u o) /\ slot_ok T D m s Av (t_v o)
  /\ slot_ok T D m s Astreamfunction (t_streamfunction o)
  /\ slot_ok T D m s Apv_zonalized (t_pv_zonalized o) /\ slot_ok T D m s Afalwa (t_falwa o)
  /\ (t_u o = None <-> t_v o = None).
Proof. intros S Hs Ho. destruct (S i o Ho) as [s' [Hs' Q]]. now rewrite (shows_fun _ _ _ _ Hs' Hs) in Q. Qed.

Lemma no_step (m : mem) l s a x : slot_step m l s a x x.
Proof. now left. Qed.

Lemma gives_pv (m : mem) i s : sound T D m -> shows m i s -> gives m s (get_pv T i m) (Ok (FM (s_pv T s))).
Proof.
  intros S Hs. destruct (shows_object m i s Hs) as [o [Ho [Eg [Et Ex]]]]. unfold get_pv, gives.
  eapply out_bind0; [apply get_object_eq, Ho|reflexivity|].
  destruct (slot_of m i s o S Hs Ho) as [Q1 [Q2 [Q3 [Q4 [Q5 [Q6 Q7]]]]]].
  destruct (t_pv o) as [b|] eqn:Eb.
  - apply out_done; [exact S|]. destruct (Q1 b eq_refl) as [y [Hy H]]. cbn in Hy. congruence.
  - eapply out_bind0; [apply load_spec_eq, Ex|reflexivity|]. unfold pbind, alloc, set_object, done. cbn [fst snd arrays objects].
    rewrite Eg. fold (s_pv T s).
    destruct (fill m [FM (s_pv T s)] i o (put_pv o (Some (List.length (arrays m)))) s S Ho Hs) as [S' E].
    { constructor; cbn; auto using no_step. right. split; [exact Eb|]. exists 0%nat, (FM (s_pv T s)).
      split; [f_equal; lia|]. split; reflexivity. }
    split; [exact S'|]. split; [exact E|]. cbn. unfold holds. cbn. apply nth_error_end.
Qed.
Lemma gives_pvs (m : mem) i s : sound T D m -> shows m i s -> gives m s (get_pv_spectral i m) (Ok (FS (s_pvs s))).
Proof.
  intros S Hs. destruct (shows_object m i s Hs) as [o [Ho [Eg [Et Ex]]]]. unfold get_pv_spectral, gives.
  eapply out_bind0; [apply get_object_eq, Ho|reflexivity|]. now apply out_done.
Qed.
Definition gives_new (m : mem) (q : res nat * mem) (r : res fieldval) : Prop :=
  outcome m q r (fun m' a y => newly m y m' a).
Lemma newly_ext m0 m y m' a : extends m0 m -> newly m y m' a -> newly m0 y m' a.
Proof. intros E [H1 [H2 H3]]. split; [exact H1|]. split; [apply extends_len in E; lia|exact H3]. Qed.
Lemma new_alloc m0 m x : sound T D m -> extends m0 m -> outcome m (alloc x m) (Ok x) (fun m' a y => newly m0 y m' a).
Proof. intros S E. eapply out_mono; [now apply out_alloc|]. eauto using newly_ext. Qed.

Ltac obj Hs o Ho Eg Et Ex := destruct (shows_object _ _ _ Hs) as [o [Ho [Eg [Et Ex]]]].
Ltac skip := eapply out_bind0; [first [eapply get_object_eq; eassumption|eapply load_mat_eq; eassumption|eapply load_spec_eq; eassumption]|reflexivity|].

Lemma vs_eq (m : mem) i s : shows m i s -> get_vorticity_spectral T i m
  = (Ok (List.length (arrays m)), mkMemory (arrays m ++ [FS (s_vorticity_spectral T s)]) (objects m)).
Proof.
  intros Hs. obj Hs o Ho Eg Et Ex. unfold get_vorticity_spectral, get_pv_spectral.
  erewrite bind_done; [|erewrite bind_done; [reflexivity|apply get_object_eq, Ho]].
  erewrite bind_done; [|apply get_object_eq, Ho]. erewrite bind_done; [|apply load_spec_eq, Ex].
  rewrite Eg. reflexivity.
Qed.
Lemma gives_vs (m : mem) i s : sound T D m -> shows m i s -> gives_new m (get_vorticity_spectral T i m) (Ok (FS (s_vorticity_spectral T s))).
Proof. intros S Hs. rewrite (vs_eq m i s Hs). exact (out_alloc m _ S). Qed.

Lemma app2 A (l : list A) x y : (l ++ [x]) ++ [y] = l ++ [x; y].
Proof. now rewrite <- app_assoc. Qed.
Lemma app2_len A (l : list A) x : List.length (l ++ [x]) = (List.length l + 1)%nat.
Proof. now rewrite app_length. Qed.

Lemma gives_uv (m : mem) i s o : sound T D m -> shows m i s -> nth_error (objects m) i = Some o -> t_u o = None ->
  outcome m (do_invert_pv T i m) (Ok (FM (s_u T s), FM (s_v T s)))
    (fun m' a y => holds m' (fst a) (fst y) /\ holds m' (snd a) (snd y)).
Proof.
  intros S Hs Ho Eu. destruct (shows_object m i s Hs) as [o1 [Ho1 [Eg [Et Ex]]]]. rewrite Ho in Ho1. injection Ho1 as <-.
  destruct (slot_of m i s o S Hs Ho) as [Q1 [Q2 [Q3 [Q4 [Q5 [Q6 Q7]]]]]].
  unfold do_invert_pv. rewrite (bind_done _ _ _ _ _ _ _ (vs_eq m i s Hs)).
  set (vs := s_vorticity_spectral T s). set (m1 := mkMemory (arrays m ++ [FS vs]) (objects m)).
  erewrite bind_done; [|exact (get_object_eq m1 i o Ho)].
  erewrite bind_done; [|apply (load_spec_eq m1 _ vs); unfold holds; cbn; apply nth_error_end].
  cbv zeta. unfold pbind, alloc, set_object, done. cbn [fst snd arrays objects m1]. rewrite Eg.
  change (wind T (s_grid s) (Spectral vs) (Spectral (szeros_like vs))) with (s_invert_pv T s).
  change (fst (s_invert_pv T s)) with (s_u T s). change (snd (s_invert_pv T s)) with (s_v T s).
  rewrite !app2, !app_length. cbn [List.length]. rewrite <- !app_assoc. cbn [app].
  destruct (fill m [FS vs; FM (s_u T s); FM (s_v T s)] i o
    (put_uv o (Some (List.length (arrays m) + 1)%nat) (Some (List.length (arrays m) + 2)%nat)) s S Ho Hs) as [S' E].
  { constructor; cbn; auto using no_step.
    - right. split; [exact Eu|]. exists 1%nat, (FM (s_u T s)). auto.
    - right. split; [now apply Q7|]. exists 2%nat, (FM (s_v T s)). auto.
    - split; discriminate. }
  split; [exact S'|]. split; [exact E|]. cbn. unfold holds. cbn.
  split; (rewrite nth_error_app2 by lia).
  - now replace (List.length (arrays m) + 1 - List.length (arrays m))%nat with 1%nat by lia.
  - now replace (List.length (arrays m) + 2 - List.length (arrays m))%nat with 2%nat by lia.
Qed.
Lemma gives_u (m : mem) i s : sound T D m -> shows m i s -> gives m s (get_u T i m) (Ok (FM (s_u T s))).
Proof.
  intros S Hs. obj Hs o Ho Eg Et Ex. unfold get_u, gives. skip.
  destruct (slot_of m i s o S Hs Ho) as [Q1 [Q2 [Q3 [Q4 [Q5 [Q6 Q7]]]]]].
  destruct (t_u o) as [b|] eqn:Eb.
  - apply out_done; [exact S|]. destruct (Q2 b eq_refl) as [y [Hy H]]. cbn in Hy. congruence.
  - eapply out_eq; [eapply out_bind; [exact (gives_uv m i s o S Hs Ho Eb)|]|].
    + intros m' a b S' E' [H1 H2]. apply (out_done _ _ m' (fst a) (fst b)); [exact S'|exact H1].
    + reflexivity.
Qed.
Lemma gives_v (m : mem) i s : sound T D m -> shows m i s -> gives m s (get_v T i m) (Ok (FM (s_v T s))).
Proof.
  intros S Hs. obj Hs o Ho Eg Et Ex. unfold get_v, gives. skip.
  destruct (slot_of m i s o S Hs Ho) as [Q1 [Q2 [Q3 [Q4 [Q5 [Q6 Q7]]]]]].
  destruct (t_v o) as [b|] eqn:Eb.
  - apply out_done; [exact S|]. destruct (Q3 b eq_refl) as [y [Hy H]]. cbn in Hy. congruence.
  - eapply out_eq; [eapply out_bind; [exact (gives_uv m i s o S Hs Ho (proj2 Q7 eq_refl))|]|].
    + intros m' a b S' E' [H1 H2]. apply (out_done _ _ m' (snd a) (snd b)); [exact S'|exact H2].
    + reflexivity.
Qed.

Lemma update_end A (l : list A) x y : update (List.length l) y (l ++ [x]) = l ++ [y].
Proof. rewrite update_app_ge by lia. now rewrite Nat.sub_diag. Qed.
Lemma poisson_eq (m : mem) g a x : holds m a (FS x) -> do_solve_poisson g a m
  = (Ok (List.length (arrays m)), mkMemory (arrays m ++ [FS (solve_poisson_spectral g x 0)]) (objects m)).
Proof.
  intros H. unfold do_solve_poisson. erewrite bind_done; [|apply load_spec_eq, H].
  erewrite bind_done; [|reflexivity]. set (m1 := mkMemory _ _).
  erewrite bind_done; [|apply (load_spec_eq m1); unfold holds; cbn; apply nth_error_end].
  erewrite bind_done; [|apply (load_spec_eq m1 a x); unfold holds; cbn; now apply nth_error_app_l].
  unfold pbind, store, done, m1. cbn [arrays objects]. now rewrite update_end.
Qed.
Lemma gives_psi (m : mem) i s : sound T D m -> shows m i s -> gives m s (get_streamfunction T i m) (Ok (FM (s_streamfunction T s))).
Proof.
  intros S Hs. obj Hs o Ho Eg Et Ex. unfold get_streamfunction, gives. skip.
  destruct (slot_of m i s o S Hs Ho) as [Q1 [Q2 [Q3 [Q4 [Q5 [Q6 Q7]]]]]].
  destruct (t_streamfunction o) as [b|] eqn:Eb.
  - apply out_done; [exact S|]. destruct (Q4 b eq_refl) as [y [Hy H]]. cbn in Hy. congruence.
  - rewrite (bind_done _ _ _ _ _ _ _ (vs_eq m i s Hs)).
    set (vs := s_vorticity_spectral T s). set (m1 := mkMemory (arrays m ++ [FS vs]) (objects m)).
    erewrite bind_done; [|apply (poisson_eq m1 _ _ vs); unfold holds; cbn; apply nth_error_end].
    set (ps := solve_poisson_spectral (t_grid o) vs 0). set (m2 := mkMemory (arrays m1 ++ [FS ps]) (objects m1)).
    erewrite bind_done; [|apply (load_spec_eq m2 _ ps); unfold holds; cbn [m2 arrays]; apply nth_error_end].
    erewrite bind_done; [|reflexivity]. set (m3 := mkMemory (arrays m2 ++ _) _).
    erewrite bind_done; [|exact (get_object_eq m3 i o Ho)].
    unfold pbind, set_object, done, m3, m2, m1. cbn [arrays objects]. unfold ps. rewrite Eg. fold vs.
    change (to_grid T (s_grid s) (solve_poisson_spectral (s_grid s) vs 0)) with (s_streamfunction T s).
    rewrite !app_length. cbn [List.length]. rewrite <- !app_assoc. cbn [app].
    match goal with |- outcome m (_, mkMemory (_ ++ ?l) (update i ?o' _)) _ _ => destruct (fill m l i o o' s S Ho Hs) as [S' E] end.
    { constructor; cbn; auto using no_step. right. split; [exact Eb|]. exists 2%nat, (FM (s_streamfunction T s)).
      split; [f_equal; lia|]. auto. }
    split; [exact S'|]. split; [exact E|]. cbn. unfold holds. cbn. rewrite nth_error_app2 by lia.
    now replace (List.length (arrays m) + 1 + 1 - List.length (arrays m))%nat with 2%nat by lia.
Qed.

(** get_pv fills at most the slot of PV *)
Lemma pv_others (m : mem) i s o : shows m i s -> nth_error (objects m) i = Some o ->
  exists o', nth_error (objects (snd (get_pv T i m))) i = Some o'
  /\ t_pv_zonalized o' = t_pv_zonalized o /\ t_falwa o' = t_falwa o.
Proof.
  intros Hs Ho. destruct (shows_object m i s Hs) as [o1 [Ho1 [Eg [Et Ex]]]]. rewrite Ho in Ho1. injection Ho1 as <-.
  unfold get_pv. erewrite bind_done; [|apply get_object_eq, Ho]. destruct (t_pv o) as [b|].
  - exists o. auto.
  - erewrite bind_done; [|apply load_spec_eq, Ex]. unfold pbind, alloc, set_object, done. cbn.
    exists (put_pv o (Some (List.length (arrays m)))). rewrite update_same by now apply nth_error_lt in Ho. auto.
Qed.

Lemma gives_pv_mem (m : mem) i s (P : mem -> Prop) : sound T D m -> shows m i s -> P (snd (get_pv T i m)) ->
  outcome m (get_pv T i m) (Ok (s_pv T s)) (fun m' a y => holds m' a (FM y) /\ P m').
Proof.
  intros S Hs H. pose proof (gives_pv m i s S Hs) as [S' [E G]]. split; [exact S'|]. split; [exact E|].
  destruct (fst (get_pv T i m)) as [a|e]; [auto|contradiction].
Qed.

Lemma gives_zon (m : mem) i s : sound T D m -> shows m i s ->
  gives m s (get_pv_zonalized T D i m) (field_value T D s Apv_zonalized).
Proof.
  intros S Hs. obj Hs o Ho Eg Et Ex. unfold get_pv_zonalized, gives. skip.
  destruct (slot_of m i s o S Hs Ho) as [Q1 [Q2 [Q3 [Q4 [Q5 [Q6 Q7]]]]]].
  destruct (t_pv_zonalized o) as [b|] eqn:Eb.
  - destruct (Q5 b eq_refl) as [y [Hy H]]. rewrite Hy. now apply out_done.
  - destruct (pv_others m i s o Hs Ho) as [o' [Ho' [Ez _]]].
    eapply out_eq; [eapply (out_bindE _ _ _ _ _ _ _ _ (fun q => do z <- d_zonalize D (s_grid s) q; Ok (FV z))); [exact (gives_pv_mem m i s (fun m' => nth_error (objects m') i = Some o') S Hs Ho')|]|].
    + intros m' a b [= <-] S' E' [H1 H2]. skip. rewrite Eg.
      eapply (out_bindE _ _ _ _ _ _ _ _ (fun z => Ok (FV z))); [apply out_attempt, S'|]. intros m2 z z2 Ed S2 E2 [<- ->].
      unfold pbind, alloc, get_object, set_object, done. cbn [fst snd arrays objects]. rewrite H2.
      destruct (fill m' [FV z] i o' (put_pv_zonalized o' (Some (List.length (arrays m')))) s S' H2 (extends_shows _ _ _ _ E' Hs)) as [S3 E3].
      { constructor; cbn; auto using no_step.
        - right. split; [congruence|]. exists 0%nat, (FV z). split; [f_equal; lia|]. cbn. now rewrite Ed.
        - exact (proj2 (proj2 (proj2 (proj2 (proj2 (proj2 (slot_of m' i s o' S' (extends_shows _ _ _ _ E' Hs) H2))))))). }
      split; [exact S3|]. split; [exact E3|]. cbn. unfold holds. cbn. apply nth_error_end.
    + reflexivity.
Qed.
Lemma gives_lwa (m : mem) i s : sound T D m -> shows m i s ->
  gives m s (get_falwa T D i m) (field_value T D s Afalwa).
Proof.
  intros S Hs. obj Hs o Ho Eg Et Ex. unfold get_falwa, gives. skip.
  destruct (slot_of m i s o S Hs Ho) as [Q1 [Q2 [Q3 [Q4 [Q5 [Q6 Q7]]]]]].
  destruct (t_falwa o) as [b|] eqn:Eb.
  - destruct (Q6 b eq_refl) as [y [Hy H]]. rewrite Hy. now apply out_done.
  - destruct (pv_others m i s o Hs Ho) as [o' [Ho' [_ Ez]]].
    eapply out_eq; [eapply (out_bindE _ _ _ _ _ _ _ _ (fun q => do z <- d_falwa D (s_grid s) q; Ok (FM z))); [exact (gives_pv_mem m i s (fun m' => nth_error (objects m') i = Some o') S Hs Ho')|]|].
    + intros m' a b [= <-] S' E' [H1 H2]. skip. rewrite Eg.
      eapply (out_bindE _ _ _ _ _ _ _ _ (fun z => Ok (FM z))); [apply out_attempt, S'|]. intros m2 z z2 Ed S2 E2 [<- ->].
      unfold pbind, alloc, get_object, set_object, done. cbn [fst snd arrays objects]. rewrite H2.
      destruct (fill m' [FM z] i o' (put_falwa o' (Some (List.length (arrays m')))) s S' H2 (extends_shows _ _ _ _ E' Hs)) as [S3 E3].
      { constructor; cbn; auto using no_step.
        - right. split; [congruence|]. exists 0%nat, (FM z). split; [f_equal; lia|]. cbn. now rewrite Ed.
        - exact (proj2 (proj2 (proj2 (proj2 (proj2 (proj2 (slot_of m' i s o' S' (extends_shows _ _ _ _ E' Hs) H2))))))). }
      split; [exact S3|]. split; [exact E3|]. cbn. unfold holds. cbn. apply nth_error_end.
    + reflexivity.
Qed.

(** ** attributes computed anew *)
(** [now_pv H] etc.: run one getter, keep the memory sound *)
Lemma gives_pvM (m : mem) i s : sound T D m -> shows m i s -> outcome m (get_pv T i m) (Ok (s_pv T s)) (fun m' a y => holds m' a (FM y)).
Proof.
  intros S Hs. pose proof (gives_pv m i s S Hs) as [S' [E G]]. split; [exact S'|]. split; [exact E|].
  destruct (fst (get_pv T i m)) as [a|e]; auto.
Qed.
Lemma gives_uM (m : mem) i s : sound T D m -> shows m i s -> outcome m (get_u T i m) (Ok (s_u T s)) (fun m' a y => holds m' a (FM y)).
Proof.
  intros S Hs. pose proof (gives_u m i s S Hs) as [S' [E G]]. split; [exact S'|]. split; [exact E|].
  destruct (fst (get_u T i m)) as [a|e]; auto.
Qed.
Lemma gives_vM (m : mem) i s : sound T D m -> shows m i s -> outcome m (get_v T i m) (Ok (s_v T s)) (fun m' a y => holds m' a (FM y)).
Proof.
  intros S Hs. pose proof (gives_v m i s S Hs) as [S' [E G]]. split; [exact S'|]. split; [exact E|].
  destruct (fst (get_v T i m)) as [a|e]; auto.
Qed.
Lemma gives_lwaM (m : mem) i s : sound T D m -> shows m i s ->
  outcome m (get_falwa T D i m) (d_falwa D (s_grid s) (s_pv T s)) (fun m' a y => holds m' a (FM y)).
Proof.
  intros S Hs. pose proof (gives_lwa m i s S Hs) as [S' [E G]]. split; [exact S'|]. split; [exact E|].
  cbn [field_value] in G. destruct (d_falwa D (s_grid s) (s_pv T s)) as [y|e]; cbn [bind] in G; destruct (fst (get_falwa T D i m)); auto.
Qed.

Ltac ext := eauto using extends_holds, extends_shows, extends_trans.
Ltac read_pv := eapply (out_bindE _ _ _ _ _ _ _ (Ok _) (fun _ => _)); [eapply gives_pvM; ext|intros ? ? ? [= <-] ? ? ?].
Ltac read_u := eapply (out_bindE _ _ _ _ _ _ _ (Ok _) (fun _ => _)); [eapply gives_uM; ext|intros ? ? ? [= <-] ? ? ?].
Ltac read_v := eapply (out_bindE _ _ _ _ _ _ _ (Ok _) (fun _ => _)); [eapply gives_vM; ext|intros ? ? ? [= <-] ? ? ?].

Lemma new_enstrophy (m : mem) i s : sound T D m -> shows m i s -> gives_new m (get_enstrophy T i m) (Ok (FM (s_enstrophy T s))).
Proof.
  intros S Hs. unfold get_enstrophy, gives_new. read_pv. skip. now apply new_alloc.
Qed.
Lemma new_eddy (m : mem) i s : sound T D m -> shows m i s -> gives_new m (get_eddy_enstrophy T i m) (Ok (FM (s_eddy_enstrophy T s))).
Proof.
  intros S Hs. unfold get_eddy_enstrophy, gives_new. read_pv. skip. now apply new_alloc.
Qed.
Lemma new_energy (m : mem) i s : sound T D m -> shows m i s -> gives_new m (get_energy T i m) (Ok (FM (s_energy T s))).
Proof.
  intros S Hs. unfold get_energy, gives_new. read_u. read_v.
  eapply out_bind0; [eapply load_mat_eq; ext|reflexivity|]. skip. apply new_alloc; ext.
Qed.
Lemma new_vorticity (m : mem) i s : sound T D m -> shows m i s -> gives_new m (get_vorticity T i m) (Ok (FM (s_vorticity T s))).
Proof.
  intros S Hs. unfold get_vorticity, gives_new. read_pv.
  destruct (shows_object m' i s ltac:(ext)) as [o [Ho [Eg _]]]. skip. skip. rewrite Eg. apply new_alloc; ext.
Qed.
Lemma new_flux (m : mem) i s : sound T D m -> shows m i s -> gives_new m (get_pv_flux_spectral T i m) (Ok (FS (s_pv_flux_spectral T s))).
Proof.
  intros S Hs. unfold get_pv_flux_spectral, gives_new. read_pv. read_u. read_pv. read_v.
  destruct (shows_object m'2 i s ltac:(ext)) as [o [Ho [Eg _]]]. skip.
  do 4 (eapply out_bind0; [eapply load_mat_eq; ext|reflexivity|]). rewrite Eg. apply new_alloc; ext.
Qed.
Lemma new_envelope (m : mem) i s : sound T D m -> shows m i s -> gives_new m (get_v_envelope_hilbert T D i m) (field_value T D s Av_envelope_hilbert).
Proof.
  intros S Hs. unfold get_v_envelope_hilbert, gives_new. read_v. skip.
  eapply out_bind; [now apply out_attempt|]. intros m2 z z2 S2 E2 [<- ->]. apply new_alloc; ext.
Qed.
Lemma new_ks (m : mem) i s : sound T D m -> shows m i s -> gives_new m (get_stationary_wavenumber T D i m) (field_value T D s Astationary_wavenumber).
Proof.
  intros S Hs. unfold get_stationary_wavenumber, gives_new. read_u. read_pv.
  destruct (shows_object m'0 i s ltac:(ext)) as [o [Ho [Eg _]]]. skip.
  do 2 (eapply out_bind0; [eapply load_mat_eq; ext|reflexivity|]). rewrite Eg.
  eapply out_bind; [now apply out_attempt|]. intros m2 z z2 S2 E2 [<- ->]. apply new_alloc; ext.
Qed.
Lemma new_fawa (m : mem) i s : sound T D m -> shows m i s -> gives_new m (get_fawa T D i m) (field_value T D s Afawa).
Proof.
  intros S Hs. unfold get_fawa, gives_new. cbn [field_value].
  eapply out_bind; [apply (gives_lwaM m i s); ext|]. intros m' a y S' E' H. cbn beta in H.
  skip. apply new_alloc; ext.
Qed.
Lemma new_filtered (m : mem) i s : sound T D m -> shows m i s -> gives_new m (get_falwa_filtered T D i m) (field_value T D s Afalwa_filtered).
Proof.
  intros S Hs. unfold get_falwa_filtered, gives_new. read_v.
  destruct (shows_object m' i s ltac:(ext)) as [o [Ho [Eg _]]]. skip. skip. rewrite Eg.
  eapply out_bind; [now apply out_attempt|]. intros m2 z z2 S2 E2 [<- ->].
  eapply out_bind; [apply (gives_lwaM m' i s); ext|]. intros m3 b y S3 E3 H3. cbn beta in H3. skip.
  eapply out_bind; [now apply out_attempt|]. intros m4 z3 z4 S4 E4 [<- ->]. apply new_alloc; ext.
Qed.

Lemma gives_of_new (m : mem) s q r : gives_new m q r -> gives m s q r.
Proof. intros H. eapply out_mono; [exact H|]. now intros m' a b _ _ [H1 _]. Qed.

Theorem gives_attribute (m : mem) i s a : sound T D m -> shows m i s -> gives m s (get_attribute T D a i m) (field_value T D s a).
Proof.
  intros S Hs. destruct a; cbn [get_attribute field_value].
  all: try (first [now apply gives_pv|now apply gives_pvs|now apply gives_u|now apply gives_v|now apply gives_psi]).
  all: try (first [now apply (gives_zon m i s)|now apply (gives_lwa m i s)]).
  all: apply gives_of_new.
  all: first [now apply new_flux|now apply new_vorticity|now apply gives_vs|now apply new_enstrophy|now apply new_eddy|now apply new_energy
    |now apply (new_fawa m i s)|now apply (new_filtered m i s)|now apply (new_envelope m i s)|now apply (new_ks m i s)].
Qed.
Theorem new_attribute (m : mem) i s a : sound T D m -> shows m i s -> keeps a = false ->
  gives_new m (get_attribute T D a i m) (field_value T D s a).
Proof.
  intros S Hs H. destruct a; try discriminate H; cbn [get_attribute field_value].
  all: first [now apply new_flux|now apply new_vorticity|now apply gives_vs|now apply new_enstrophy|now apply new_eddy|now apply new_energy
    |now apply (new_fawa m i s)|now apply (new_filtered m i s)|now apply (new_envelope m i s)|now apply (new_ks m i s)].
Qed.

(** ** forcing *)
Lemma load_value_eq m v x : shows_value m v x -> load_value v m = (Ok x, m).
Proof.
  destruct v as [a|c], x as [d|f]; cbn; try contradiction; [|now intros ->].
  intros H. unfold pbind. now rewrite (load_mat_eq _ _ _ H).
Qed.
Lemma out_alloc_value m x : sound T D m -> outcome m (alloc_value x m) (Ok x) shows_value.
Proof.
  intros S. destruct x as [c|f]; cbn [alloc_value]; [now apply out_done|].
  eapply (out_bindE _ _ _ _ _ _ _ (Ok _) (fun _ => _)); [now apply out_alloc|]. intros m' a b [= <-] S' E' [H _]. now apply out_done.
Qed.
Lemma shows_value_ext m m' v x : extends m m' -> shows_value m v x -> shows_value m' v x.
Proof. intros E. destruct v, x; cbn; auto. apply extends_holds, E. Qed.

Lemma out_wind (o : orog) m i s : sound T D m -> shows m i s -> outcome m (do_wind T o i m) (Ok (get_wind T o s)) (fun _ a b => a = b).
Proof.
  intros S Hs. unfold do_wind, get_wind. destruct (o_wind o).
  - read_u. skip. read_v. skip. now apply out_done.
  - read_u. skip. now apply out_done.
  - obj Hs t Ht Eg Et Ex. skip. rewrite Eg. now apply out_done.
Qed.
Lemma out_orog (o : orog) m i s : sound T D m -> shows m i s -> outcome m (do_orog T o i m) (orog_call T o s) shows_value.
Proof.
  intros S Hs. obj Hs t Ht Eg Et Ex. unfold do_orog, orog_call. skip. rewrite Eg. cbv zeta.
  eapply (out_bindE _ _ _ _ _ _ _ (Ok _) (fun _ => _)); [exact (out_wind o m i s S Hs)|]. intros m1 w b [= <-] S1 E1 ->.
  eapply out_bind; [now apply out_attempt|]. intros m2 gr gr' S2 E2 [<- ->].
  unfold orog_value. destruct (get_wind T o s) as [wu wv]. now apply out_alloc_value.
Qed.
Lemma out_call (a : obj K) : forcing_program T D (do_call T a) (call T a).
Proof.
  induction a as [c|f|f|a IHa b IHb|a IHa b IHb|tend|rate ref|o]; intros m i s S Hs; cbn [do_call call].
  - split; [exact S|]. split; [apply extends_refl|reflexivity].
  - obj Hs t Ht Eg Et Ex. skip. skip. rewrite Eg, Et. replace (mkState _ _ _) with s by now destruct s.
    eapply out_eq; [eapply (out_bindE _ _ _ _ _ _ _ _ (fun x => Ok x)); [now apply out_attempt|]|now destruct (f s)].
    intros m' x y Ey S' E' [<- ->]. now apply out_alloc_value.
  - obj Hs t Ht Eg Et Ex. skip. skip. rewrite Eg, Et. replace (mkState _ _ _) with s by now destruct s.
    eapply out_eq; [eapply (out_bindE _ _ _ _ _ _ _ _ (fun x => Ok x)); [now apply out_attempt|]|now destruct (f s)].
    intros m' x y Ey S' E' [<- ->]. now apply out_alloc_value.
  - eapply out_bind; [now apply IHa|]. intros m1 v x S1 E1 H1.
    eapply out_bind; [apply IHb; ext|]. intros m2 w y S2 E2 H2.
    eapply out_bind0; [exact (load_value_eq _ _ _ (shows_value_ext _ _ _ _ E2 H1))|reflexivity|].
    eapply out_bind0; [exact (load_value_eq _ _ _ H2)|reflexivity|].
    eapply out_eq; [eapply (out_bindE _ _ _ _ _ _ _ _ (fun x => Ok x)); [now apply out_attempt|]|now destruct (fbin Rplus x y)].
    intros m' z z' Ey S' E' [<- ->]. now apply out_alloc_value.
  - eapply out_bind; [now apply IHa|]. intros m1 v x S1 E1 H1.
    eapply out_bind; [apply IHb; ext|]. intros m2 w y S2 E2 H2.
    eapply out_bind0; [exact (load_value_eq _ _ _ (shows_value_ext _ _ _ _ E2 H1))|reflexivity|].
    eapply out_bind0; [exact (load_value_eq _ _ _ H2)|reflexivity|].
    eapply out_eq; [eapply (out_bindE _ _ _ _ _ _ _ _ (fun x => Ok x)); [now apply out_attempt|]|now destruct (fbin Rmult x y)].
    intros m' z z' Ey S' E' [<- ->]. now apply out_alloc_value.
  - obj Hs t Ht Eg Et Ex. skip. rewrite Et. unfold switch_call.
    eapply out_bind; [now apply out_attempt|]. intros m' on on' S' E' [<- ->]. now apply out_done.
  - unfold relax_call. read_pv. skip. eapply out_bind; [now apply out_attempt|]. intros m2 d d' S2 E2 [<- ->].
    eapply out_eq; [eapply (out_bindE _ _ _ _ _ _ _ _ (fun x => Ok x)); [now apply out_attempt|]|now destruct (fbin Rmult (FNum rate) d)].
    intros m3 z z' Ey S' E' [<- ->]. now apply out_alloc_value.
  - now apply out_orog.
Qed.

(** ** writing into an array that no State keeps *)
Lemma update_holds_same m a x (objs : list (stored K)) : (a < List.length (arrays m))%nat -> holds (mkMemory (update a x (arrays m)) objs) a x.
Proof. intros H. unfold holds. cbn. now apply update_same. Qed.
Lemma update_holds_other m a b x y (objs : list (stored K)) : a <> b -> holds m b y -> holds (mkMemory (update a x (arrays m)) objs) b y.
Proof. intros H. unfold holds. cbn. now rewrite update_other. Qed.
Lemma store_shows m a x i s : unshared m a -> shows m i s -> shows (mkMemory (update a x (arrays m)) (objects m)) i s.
Proof.
  intros [L U] [o [y [H1 [H2 ->]]]]. exists o, y. split; [exact H1|]. split; [|reflexivity].
  apply update_holds_other; [|exact H2]. intros ->. apply (U i o H1). apply in_slots. now left.
Qed.
Lemma store_sound m a x : sound T D m -> unshared m a -> sound T D (mkMemory (update a x (arrays m)) (objects m)).
Proof.
  intros S U i o Ho. cbn in Ho. destruct (S i o Ho) as [s [Hs Q]]. exists s. split; [now apply store_shows|].
  assert (Z : forall c f, (forall b, f = Some b -> In b (slots o)) -> slot_ok T D m s c f ->
    slot_ok T D (mkMemory (update a x (arrays m)) (objects m)) s c f).
  { intros c f I H b Hb. destruct (H b Hb) as [y [H1 H2]]. exists y. split; [exact H1|]. apply update_holds_other; [|exact H2].
    intros <-. destruct U as [_ U]. exact (U i o Ho (I a Hb)). }
  destruct Q as [Q1 [Q2 [Q3 [Q4 [Q5 [Q6 Q7]]]]]].
  repeat split; try (apply Q7); (apply Z; [|assumption]); intros b Hb; apply in_slots; auto 8.
Qed.
Lemma store_extends m0 m a x : extends m0 m -> (List.length (arrays m0) <= a)%nat ->
  extends m0 (mkMemory (update a x (arrays m)) (objects m)).
Proof.
  intros [[l E] E2 E3] L. constructor; cbn; auto. exists (update (a - List.length (arrays m0)) x l). rewrite E. now apply update_app_ge.
Qed.

(** ** integration *)
Context (M : program_model K) (N : bmodel K).
Hypothesis HM : same_model T D M N.

Lemma out_tendency m i s : sound T D m -> shows m i s ->
  outcome m (do_tendency T M i m) (pv_tendency_spectral T N s) (fun m' a y => newly m (FS y) m' a).
Proof.
  intros S Hs. unfold do_tendency, pv_tendency_spectral.
  eapply (out_bindE _ _ _ _ _ _ _ (Ok (FS (s_pv_flux_spectral T s))) (fun _ => _) (fun m1 f y => newly m y m1 f)); [exact (new_flux m i s S Hs)|]. intros m1 f y [= <-] S1 E1 [H1 [L1 U1]].
  skip. set (x := sopp (s_pv_flux_spectral T s)).
  destruct (out_alloc m1 (FS x) S1) as [S2 [E2 [H2 [L2 U2]]]]. cbn [alloc fst snd] in S2, E2, H2, L2, U2.
  erewrite bind_done; [|reflexivity]. set (t := List.length (arrays m1)) in *. set (m2 := mkMemory (arrays m1 ++ [FS x]) (objects m1)) in *.
  assert (L : (List.length (arrays m) <= t)%nat) by (apply extends_len in E1; unfold t; lia).
  destruct HM as [_ [_ [_ HR]]]. destruct (p_rhs M) as [p|], (m_rhs N) as [g|]; try contradiction.
  2: { split; [exact S2|]. split; [exact E2|]. now split. }
  (* the forcing runs between the allocation and the write *)
  destruct (HR m2 i s S2 ltac:(ext)) as [S3 [E3 R]]. unfold pbind at 1.
  destruct (p i m2) as [[v|e] m3] eqn:Ep; cbn [fst snd] in S3, E3, R; destruct (g s) as [z|e']; try contradiction.
  2: { subst e'. split; [exact S3|]. split; [exact (extends_trans _ _ _ E2 E3)|reflexivity]. }
  cbn [bind].
  destruct (shows_object m3 i s ltac:(ext)) as [o [Ho [Eg _]]].
  rewrite (bind_done _ _ _ _ _ _ _ (get_object_eq _ _ _ Ho)). destruct v as [b|c], z as [d|fz]; cbn in R; try contradiction.
  - rewrite (bind_done _ _ _ _ _ _ _ (load_mat_eq _ _ _ R)).
    rewrite (bind_done _ _ _ _ _ _ _ (load_spec_eq m3 t x (extends_holds _ _ _ _ E3 H2))).
    unfold pbind, store, done. rewrite Eg. pose proof (extends_unshared _ _ _ E3 U2) as U3.
    split; [now apply store_sound|]. split; [apply store_extends; [exact (extends_trans _ _ _ E2 E3)|unfold t; lia]|].
    cbn [fst snd]. split; [apply update_holds_same, U3|]. split; [exact L|].
    destruct U3 as [U3 U4]. split; [cbn; now rewrite update_length|exact U4].
  - split; [exact S3|]. split; [exact (extends_trans _ _ _ E2 E3)|reflexivity].
Qed.

Lemma diffusion_same g dt x :
  apply_diffusion T (@mkModel K None (p_order M) (p_coeff M) (p_bg M)) g dt x = apply_diffusion T N g dt x.
Proof. destruct HM as [E1 [E2 [E3 _]]]. unfold apply_diffusion. cbn. now rewrite E1, E2, E3. Qed.

(** a new State object with a new array in its slot *)
Lemma out_object m0 m g time a x : sound T D m -> extends m0 m -> newly m0 (FS x) m a ->
  let q := state_of_spectral g time a m in
  sound T D (snd q) /\ extends m0 (snd q) /\ fst q = Ok (List.length (objects m))
  /\ shows (snd q) (List.length (objects m)) (mkState g time x).
Proof.
  intros S E [H [L U]]. cbn. set (o := mkStored g time a None None None None None None). set (m' := mkMemory _ _).
  assert (Hs : shows m' (List.length (objects m)) (mkState g time x)).
  { exists o, x. split; [cbn; apply nth_error_end|]. split; [exact H|reflexivity]. }
  split; [|split; [|split; [reflexivity|exact Hs]]].
  - intros i oi Hi. cbn in Hi. destruct (Nat.eq_dec i (List.length (objects m))) as [->|Ne].
    + rewrite nth_error_end in Hi. injection Hi as <-. exists (mkState g time x). split; [exact Hs|].
      repeat split; try (intros b; cbn; discriminate).
    + rewrite nth_error_app1 in Hi.
      2: { apply nth_error_lt in Hi. rewrite app_length in Hi. cbn in Hi. lia. }
      destruct (S i oi Hi) as [s [[o1 [y [H1 [H2 ->]]]] Q]]. exists (mkState (t_grid o1) (t_time o1) y).
      split; [|exact Q]. exists o1, y. split; [cbn; now apply nth_error_app_l|]. now split.
  - destruct E as [E1 E2 E3]. constructor; cbn; [exact E1| |].
    + intros i oi Hi. destruct (E2 i oi Hi) as [o' [H1 H2]]. exists o'. split; [now apply nth_error_app_l|exact H2].
    + intros i oi b Hi I. destruct (Nat.eq_dec i (List.length (objects m))) as [->|Ne].
      * rewrite nth_error_end in Hi. injection Hi as <-. cbn in I. destruct I as [<-|[]]. left. exact L.
      * rewrite nth_error_app1 in Hi.
        2: { apply nth_error_lt in Hi. rewrite app_length in Hi. cbn in Hi. lia. }
        exact (E3 i oi b Hi I).
Qed.
Lemma out_state m0 m g time a x : sound T D m -> extends m0 m -> newly m0 (FS x) m a ->
  sound T D (snd (state_of_spectral g time a m)) /\ extends m0 (snd (state_of_spectral g time a m)) /\
  match fst (state_of_spectral g time a m) with Ok i => shows (snd (state_of_spectral g time a m)) i (mkState g time x) | Err _ => False end.
Proof. intros S E H. destruct (out_object m0 m g time a x S E H) as [H1 [H2 [H3 H4]]]. split; [exact H1|]. split; [exact H2|]. now rewrite H3. Qed.
Lemma newly_grow m0 m m' y a : extends m m' -> newly m0 y m a -> newly m0 y m' a.
Proof. intros E [H1 [H2 H3]]. split; [ext|]. split; [exact H2|]. exact (extends_unshared _ _ _ E H3). Qed.

(** like out_bindE, with growth measured from an earlier memory *)
Lemma out_step A B A' B' m0 m (p : prog K A) (k : A -> prog K A') (r : res B) (r' : B -> res B') P Q :
  extends m0 m -> outcome m (p m) r P ->
  (forall m' a b, r = Ok b -> sound T D m' -> extends m m' -> extends m0 m' -> P m' a b -> outcome m0 (k a m') (r' b) Q) ->
  outcome m0 (pbind p k m) (bind r r') Q.
Proof.
  intros E0 [S [E H]] F. pose proof (extends_trans _ _ _ E0 E) as E1. unfold pbind.
  destruct (p m) as [[a|e] m'] eqn:Ep; destruct r as [b|e']; cbn in *; try contradiction.
  - now apply (F m' a b).
  - subst e'. split; [exact S|]. split; [exact E1|reflexivity].
Qed.
Lemma out_skip A A' B' m0 m (p : prog K A) (k : A -> prog K A') (r : res B') Q a :
  p m = (Ok a, m) -> outcome m0 (k a m) r Q -> outcome m0 (pbind p k m) r Q.
Proof. intros H F. now rewrite (bind_done _ _ _ _ _ _ _ H). Qed.
Ltac pass := eapply out_skip; [first [eapply get_object_eq; eassumption|eapply load_mat_eq; eassumption|eapply load_spec_eq; ext]|].

Lemma pvs_eq m i o : nth_error (objects m) i = Some o -> get_pv_spectral i m = (Ok (t_pv_spectral o), m).
Proof. intros H. unfold get_pv_spectral. erewrite bind_done; [reflexivity|now apply get_object_eq]. Qed.

Lemma out_euler m i s dt : sound T D m -> shows m i s ->
  outcome m (do_euler T M i dt m) (euler T N s dt) (fun m' a y => shows m' a y).
Proof.
  intros S Hs. obj Hs o Ho Eg Et Ex. unfold do_euler, euler.
  eapply out_step; [apply extends_refl|now apply out_attempt|]. intros m1 dts d Ed S1 E1 _ [<- ->].
  eapply out_skip; [apply pvs_eq, Ho|].
  eapply out_step; [apply extends_refl|now apply out_tendency|]. intros m2 t y Ey S2 E2 _ [H2 [L2 U2]].
  pass. pass. destruct (shows_object m2 i s ltac:(ext)) as [o2 [Ho2 [Eg2 [Et2 Ex2]]]]. pass.
  unfold do_diffusion. rewrite diffusion_same, Eg2, Et2. cbv zeta.
  set (x := apply_diffusion T N (s_grid s) dts (sadd (s_pvs s) (sscale dts y))).
  eapply (out_step _ _ _ _ m m2 _ _ (Ok (FS x)) (fun _ => _)); [exact E2|now apply out_alloc|].
  intros m3 n z [= <-] S3 E3 E03 H3. apply (newly_ext _ _ _ _ _ E2) in H3.
  eapply out_step; [exact E03|now apply out_attempt|]. intros m4 time time' _ S4 E4 E04 [<- ->].
  destruct (out_state m m3 (s_grid s) time n x S3 E03 H3) as [Q1 [Q2 Q3]]. split; [exact Q1|]. split; [exact Q2|].
  destruct (fst (state_of_spectral (s_grid s) time n m3)); auto.
Qed.
Lemma out_leapfrog m i j s1 s2 nu : sound T D m -> shows m i s1 -> shows m j s2 ->
  outcome m (do_leapfrog T M i j nu m) (leapfrog T N s1 s2 nu)
    (fun m' a y => shows m' (fst a) (fst y) /\ shows m' (snd a) (snd y)).
Proof.
  intros S Hi Hj. destruct (shows_object _ _ _ Hi) as [o1 [Ho1 [Eg1 [Et1 Ex1]]]]. destruct (shows_object _ _ _ Hj) as [o2 [Ho2 [Eg2 [Et2 Ex2]]]].
  unfold do_leapfrog, leapfrog. pass. pass. rewrite Et1, Et2, Eg2.
  eapply out_step; [apply extends_refl|now apply out_attempt|]. intros m1 dt d _ S1 E1 _ [<- ->].
  eapply out_step; [apply extends_refl|now apply out_attempt|]. intros m1 dts d _ S2 E2 _ [<- ->].
  eapply out_skip; [apply pvs_eq, Ho1|].
  eapply out_step; [apply extends_refl|now apply (out_tendency m j s2)|]. intros m2 t y _ S3 E3 _ [H3 [L3 U3]].
  pass. pass. unfold do_diffusion. rewrite diffusion_same. cbv zeta.
  set (x := apply_diffusion T N (s_grid s2) (2 * dts) (sadd (s_pvs s1) (sscale (2 * dts) y))).
  eapply (out_step _ _ _ _ m m2 _ _ (Ok (FS x)) (fun _ => _)); [exact E3|now apply out_alloc|].
  intros m3 n z [= <-] S4 E4 E04 H4. apply (newly_ext _ _ _ _ _ E3) in H4.
  eapply out_step; [exact E04|now apply out_attempt|]. intros m4 time time' _ S5 E5 E05 [<- ->].
  destruct (out_object m m3 (s_grid s2) time n x S4 E04 H4) as [Q1 [Q2 [Q3 Q4]]].
  rewrite (bind_done _ _ _ _ _ _ (snd (state_of_spectral (s_grid s2) time n m3))) by (rewrite <- Q3; apply surjective_pairing).
  set (m5 := snd (state_of_spectral (s_grid s2) time n m3)) in *. set (new := List.length (objects m3)) in *.
  assert (Hn : holds m5 n (FS x)) by exact (proj1 H4).
  destruct (shows_object m5 j s2 ltac:(ext)) as [o3 [Ho3 [Eg3 [Et3 Ex3]]]].
  destruct (shows_object m5 i s1 ltac:(ext)) as [o4 [Ho4 [Eg4 [Et4 Ex4]]]].
  eapply out_skip; [apply pvs_eq, Ho3|]. eapply out_skip; [apply pvs_eq, Ho4|]. pass. pass. pass.
  set (f := sadd (sscale (1 - 2 * nu) (s_pvs s2)) (sscale nu (sadd (s_pvs s1) x))).
  eapply (out_step _ _ _ _ m m5 _ _ (Ok (FS f)) (fun _ => _)); [exact Q2|now apply out_alloc|].
  intros m6 b z [= <-] S6 E6 E06 H6. apply (newly_ext _ _ _ _ _ Q2) in H6.
  destruct (out_object m m6 (s_grid s2) (s_time s2) b f S6 E06 H6) as [R1 [R2 [R3 R4]]].
  rewrite (bind_done _ _ _ _ _ _ (snd (state_of_spectral (s_grid s2) (s_time s2) b m6))) by (rewrite <- R3; apply surjective_pairing).
  split; [exact R1|]. split; [exact R2|]. cbn [done fst snd]. split; [exact R4|].
  pose proof (extends_shows _ _ _ _ E6 Q4) as [o5 [y5 [P1 [P2 P3]]]]. exists o5, y5. split; [cbn; now apply nth_error_app_l|]. now split.
Qed.

(** ** run *)
Definition shows_list m (l : list nat) (ss : list (state K)) : Prop := Forall2 (shows m) l ss.
Lemma shows_list_ext m m' l ss : extends m m' -> shows_list m l ss -> shows_list m' l ss.
Proof. intros E H. induction H; constructor; ext. Qed.
Lemma out_loop fuel tend save : forall m st st_new states t_save s s_new ss,
  sound T D m -> shows m st s -> shows m st_new s_new -> shows_list m states ss ->
  outcome m (do_loop T M fuel tend save st st_new states t_save m) (run_loop T N fuel tend save s s_new ss t_save)
    (fun m' a y => shows m' (fst a) (fst y) /\ shows_list m' (snd a) (snd y)).
Proof.
  induction fuel as [|fuel IH]; intros m st st_new states t_save s s_new ss S H1 H2 H3; cbn [do_loop run_loop].
  { split; [exact S|]. split; [apply extends_refl|reflexivity]. }
  obj H1 o Ho Eg Et Ex. skip. rewrite Et.
  eapply out_bind; [now apply out_attempt|]. intros m1 c c' S1 E1 [<- ->]. destruct c; [|now apply out_done].
  eapply out_bind; [exact (out_leapfrog m st st_new s s_new default_nu S H1 H2)|].
  intros m2 p q S2 E2 [Q1 Q2]. destruct q as [s' s_new']. cbn [fst snd] in Q1, Q2.
  eapply out_bind; [now apply out_attempt|]. intros m3 sv sv' S3 E3 [<- ->]. destruct sv; [|apply IH; eauto using shows_list_ext].
  destruct (shows_object _ _ _ Q1) as [o2 [Ho2 [Eg2 [Et2 Ex2]]]]. skip. rewrite Et2.
  eapply out_bind; [now apply out_attempt|]. intros m4 due due' S4 E4 [<- ->]. destruct due; [|apply IH; eauto using shows_list_ext].
  eapply out_bind; [now apply out_attempt|]. intros m5 ts ts' S5 E5 [<- ->]. apply IH; auto.
  apply Forall2_app; [exact (shows_list_ext _ _ _ _ E2 H3)|]. now constructor.
Qed.
Lemma states_eq m l ss : shows_list m l ss -> do_states l m = (Ok ss, m).
Proof.
  induction 1 as [|i s l ss H _ IH]; [reflexivity|]. cbn [do_states].
  obj H o Ho Eg Et Ex. erewrite bind_done; [|apply get_object_eq, Ho]. erewrite bind_done; [|apply load_spec_eq, Ex].
  erewrite bind_done; [|exact IH]. rewrite Eg, Et. now destruct s.
Qed.
Definition run_states (l : runlist K) : list (state K) := match l with PlainList l | AStateList l => l end.
Theorem out_run fuel m i s dt tend save : sound T D m -> shows m i s ->
  outcome m (do_run T M fuel i dt tend save m) (run T N fuel s dt tend save)
    (fun m' a y => shows m' (fst a) (fst y) /\ shows_list m' (snd a) (run_states (snd y))).
Proof.
  intros S Hs. obj Hs o Ho Eg Et Ex. unfold do_run, run. skip. rewrite Et.
  eapply out_bind; [now apply out_attempt|]. intros m1 c c' S1 E1 [<- ->]. destruct c.
  { apply out_done; [exact S|]. split; [exact Hs|]. now repeat constructor. }
  eapply out_bind; [now apply out_euler|]. intros m2 n s_new S2 E2 H2.
  eapply out_bind.
  { apply (out_loop fuel tend save m2 i n [i] save s s_new [s]); ext. repeat constructor. ext. }
  intros m3 p [s3 ss3] S3 E3 [P1 P2]. cbn [fst snd] in P1, P2.
  eapply out_bind0; [exact (states_eq _ _ _ P2)|reflexivity|].
  eapply out_bindE; [now apply out_attempt|]. intros m4 l l' El S4 E4 [<- ->]. apply out_done; [exact S3|]. cbn. split; [exact P1|].
  replace l with ss3; [exact P2|]. unfold statelist_of in El. destruct ss3; [congruence|].
  unfold passert in El. destruct (forallb _ _); congruence.
Qed.

(** ** objects that do not exist *)
Lemma no_object m i : nth_error (objects m) i = None -> get_object i m = (Err TypeError, m).
Proof. unfold get_object. now intros ->. Qed.
Lemma no_attribute m i a : nth_error (objects m) i = None -> get_attribute T D a i m = (Err TypeError, m).
Proof.
  intros H. apply no_object in H. destruct a; cbn [get_attribute];
  unfold get_pv_flux_spectral, get_vorticity, get_vorticity_spectral, get_enstrophy, get_eddy_enstrophy, get_energy, get_fawa,
    get_falwa_filtered, get_v_envelope_hilbert, get_stationary_wavenumber, get_pv_zonalized, get_falwa, get_streamfunction,
    get_pv_spectral, get_pv, get_u, get_v, pbind; rewrite H; reflexivity.
Qed.
Lemma no_run fuel m i dt tend save : nth_error (objects m) i = None -> do_run T M fuel i dt tend save m = (Err TypeError, m).
Proof. intros H. apply no_object in H. unfold do_run, pbind. now rewrite H. Qed.

(** ** State(g, time, pv=array) *)
Lemma out_state_of_pv m g time a : sound T D m ->
  sound T D (snd (state_of_pv T g time a m)) /\ extends m (snd (state_of_pv T g time a m))
  /\ (forall f, holds m a (FM f) -> exists i, fst (state_of_pv T g time a m) = Ok i
        /\ shows (snd (state_of_pv T g time a m)) i (mkState g time (to_spectral T g f))).
Proof.
  intros S. unfold state_of_pv.
  destruct (nth_error (arrays m) a) as [[f|x|v]|] eqn:E.
  - rewrite (bind_done _ _ _ _ _ _ _ (load_mat_eq m a f E)).
    set (x := to_spectral T g f). destruct (out_alloc m (FS x) S) as [S1 [E1 N1]]. cbn [alloc fst snd] in S1, E1, N1.
    erewrite bind_done; [|reflexivity]. set (m1 := mkMemory _ _) in *.
    destruct (out_object m m1 g time (List.length (arrays m)) x S1 E1 N1) as [Q1 [Q2 [Q3 Q4]]].
    split; [exact Q1|]. split; [exact Q2|]. intros f' Hf. assert (f' = f) as -> by (unfold holds in Hf; congruence). eauto.
  - unfold load_mat, load, pbind. rewrite E. cbn. split; [exact S|]. split; [apply extends_refl|]. unfold holds. intros f Hf. congruence.
  - unfold load_mat, load, pbind. rewrite E. cbn. split; [exact S|]. split; [apply extends_refl|]. unfold holds. intros f Hf. congruence.
  - unfold load_mat, load, pbind. rewrite E. cbn. split; [exact S|]. split; [apply extends_refl|]. unfold holds. intros f Hf. congruence.
Qed.

(** ** scripts *)
Definition kept_objects m m' : Prop := (forall i s, shows m i s -> shows m' i s)
  /\ (forall i o, nth_error (objects m) i = Some o -> exists o', nth_error (objects m') i = Some o' /\ stays o o').
Lemma kept_ext m m' : extends m m' -> kept_objects m m'.
Proof. intros E. split; [intros; ext|exact (ext_objects _ _ E)]. Qed.
Lemma kept_trans m1 m2 m3 : kept_objects m1 m2 -> kept_objects m2 m3 -> kept_objects m1 m3.
Proof.
  intros [A B] [C E]. split; [auto|]. intros i o H. destruct (B i o H) as [o' [H1 H2]]. destruct (E i o' H1) as [o'' [H3 H4]].
  eauto using stays_trans.
Qed.
Lemma wrap_sound m g time a x : sound T D m -> unshared m a -> holds m a (FS x) ->
  let m' := snd (state_of_spectral g time a m) in
  sound T D m' /\ kept_objects m m' /\ shows m' (List.length (objects m)) (mkState g time x)
  /\ (forall b, b <> a -> unshared m b -> unshared m' b).
Proof.
  intros S U H. cbn. set (o := mkStored g time a None None None None None None). set (m' := mkMemory _ _).
  assert (Hs : shows m' (List.length (objects m)) (mkState g time x)).
  { exists o, x. split; [cbn; apply nth_error_end|]. split; [exact H|reflexivity]. }
  assert (Hk : forall i s, shows m i s -> shows m' i s).
  { intros i s [o1 [y [H1 [H2 ->]]]]. exists o1, y. split; [cbn; now apply nth_error_app_l|]. now split. }
  split; [|split; [|split; [exact Hs|]]].
  - intros i oi Hi. cbn in Hi. destruct (Nat.eq_dec i (List.length (objects m))) as [->|Ne].
    + rewrite nth_error_end in Hi. injection Hi as <-. exists (mkState g time x). split; [exact Hs|].
      repeat split; try (intros b; cbn; discriminate).
    + rewrite nth_error_app1 in Hi.
      2: { apply nth_error_lt in Hi. rewrite app_length in Hi. cbn in Hi. lia. }
      destruct (S i oi Hi) as [s [Q0 Q]]. exists s. split; [now apply Hk|exact Q].
  - split; [exact Hk|]. intros i oi Hi. exists oi. split; [cbn; now apply nth_error_app_l|apply stays_refl].
  - intros b Nb [Lb Ub]. split; [exact Lb|]. intros i oi Hi I. cbn in Hi.
    destruct (Nat.eq_dec i (List.length (objects m))) as [->|Ne].
    + rewrite nth_error_end in Hi. injection Hi as <-. cbn in I. destruct I as [I|[]]. congruence.
    + rewrite nth_error_app1 in Hi.
      2: { apply nth_error_lt in Hi. rewrite app_length in Hi. cbn in Hi. lia. }
      exact (Ub i oi Hi I).
Qed.

Theorem careful_ok l : forall own m, sound T D m -> Forall (unshared m) own -> careful T D M own l m ->
  sound T D (script T D M l m) /\ kept_objects m (script T D M l m).
Proof.
  induction l as [|c l IH]; intros own m S HO HC.
  { split; [exact S|]. split; [auto|]. intros i o H. exists o. split; [exact H|apply stays_refl]. }
  cbn [script fold_left]. fold (script T D M l (snd (act T D M c m))).
  assert (G : forall own', sound T D (snd (act T D M c m)) -> extends m (snd (act T D M c m)) ->
    Forall (unshared (snd (act T D M c m))) own' -> careful T D M own' l (snd (act T D M c m)) ->
    sound T D (script T D M l (snd (act T D M c m))) /\ kept_objects m (script T D M l (snd (act T D M c m)))).
  { intros own' S' E' F C. destruct (IH own' _ S' F C) as [H1 H2]. split; [exact H1|].
    exact (kept_trans _ _ _ (kept_ext _ _ E') H2). }
  assert (HE : forall m', extends m m' -> Forall (unshared m') own).
  { intros m' E. eapply Forall_impl; [|exact HO]. intros a. now apply extends_unshared. }
  destruct c as [x|g time a|g time a|i a|a x|fuel i dt tend save]; cbn [careful] in HC.
  - destruct (out_alloc m x S) as [S1 [E1 N1]]. eapply G; [exact S1|exact E1| |exact HC].
    constructor; [exact (proj2 (proj2 N1))|exact (HE _ E1)].
  - destruct (out_state_of_pv m g time a S) as [S1 [E1 _]]. eapply G; [exact S1|exact E1| |exact HC].
    cbn [act returned fst]. destruct (fst (state_of_pv T g time a m)); exact (HE _ E1).
  - destruct HC as [I [[x Hx] HC]]. assert (U : unshared m a) by (rewrite Forall_forall in HO; auto).
    destruct (wrap_sound m g time a x S U Hx) as [S1 [K1 [_ U1]]]. cbn [act returned snd] in *.
    assert (F : Forall (unshared (snd (state_of_spectral g time a m))) (filter (fun b => negb (Nat.eqb a b)) own)).
    { apply Forall_forall. intros b Hb. apply filter_In in Hb as [Hb Nb]. apply U1; [|rewrite Forall_forall in HO; auto].
      intros ->. now rewrite Nat.eqb_refl in Nb. }
    destruct (IH _ _ S1 F HC) as [H1 H2]. split; [exact H1|exact (kept_trans _ _ _ K1 H2)].
  - destruct (nth_error (objects m) i) as [o|] eqn:Ho.
    + destruct (S i o Ho) as [s [Hs _]]. destruct (gives_attribute m i s a S Hs) as [S1 [E1 _]].
      eapply G; [exact S1|exact E1| |exact HC]. destruct (keeps a) eqn:Ka; [exact (HE _ E1)|].
      destruct (new_attribute m i s a S Hs Ka) as [_ [_ N1]]. cbn [act returned fst].
      destruct (fst (get_attribute T D a i m)) as [b|e]; [|exact (HE _ E1)]. constructor; [|exact (HE _ E1)].
      destruct (field_value T D s a); [exact (proj2 (proj2 N1))|contradiction].
    + eapply (G own).
      * cbn [act returned snd]. rewrite (no_attribute m i a Ho). exact S.
      * cbn [act returned snd]. rewrite (no_attribute m i a Ho). apply extends_refl.
      * cbn [act returned snd]. rewrite (no_attribute m i a Ho). exact HO.
      * cbn [act returned fst] in HC. rewrite (no_attribute m i a Ho) in HC at 1. cbn in HC. destruct (keeps a); exact HC.
  - destruct HC as [I HC]. assert (U : unshared m a) by (rewrite Forall_forall in HO; auto).
    cbn [act returned snd store] in *.
    assert (S1 := store_sound m a x S U). destruct (IH own _ S1) as [H1 H2]; [|exact HC|].
    + eapply Forall_impl; [|exact HO]. intros b [Lb Ub]. split; [cbn; now rewrite update_length|exact Ub].
    + split; [exact H1|]. eapply kept_trans; [|exact H2]. split; [intros j s; now apply store_shows|].
      intros j o Hj. exists o. split; [exact Hj|apply stays_refl].
  - destruct (nth_error (objects m) i) as [o|] eqn:Ho.
    + destruct (S i o Ho) as [s [Hs _]]. destruct (out_run fuel m i s dt tend save S Hs) as [S1 [E1 _]].
      eapply G; [exact S1|exact E1| |exact HC]. cbn [act returned fst].
      destruct (fst (do_run T M fuel i dt tend save m)); exact (HE _ E1).
    + eapply (G own).
      * cbn [act returned snd]. rewrite no_run by exact Ho. exact S.
      * cbn [act returned snd]. rewrite no_run by exact Ho. apply extends_refl.
      * cbn [act returned snd]. rewrite no_run by exact Ho. exact HO.
      * cbn [act returned fst] in HC. rewrite no_run in HC at 1 by exact Ho. exact HC.
Qed.

(** ** kept attributes hand out the array in the slot *)
Definition slot (o : stored K) (a : attribute) : option nat :=
  match a with
  | Apv | Aavo => t_pv o
  | Apv_spectral => Some (t_pv_spectral o)
  | Au => t_u o
  | Av => t_v o
  | Astreamfunction => t_streamfunction o
  | Apv_zonalized => t_pv_zonalized o
  | Afalwa => t_falwa o
  | _ => None
  end.
Lemma slot_again m i o a b : nth_error (objects m) i = Some o -> slot o a = Some b -> get_attribute T D a i m = (Ok b, m).
Proof.
  intros Ho E. destruct a; cbn [slot get_attribute] in *; try discriminate;
  unfold get_pv, get_u, get_v, get_streamfunction, get_pv_zonalized, get_falwa, get_pv_spectral;
  rewrite (bind_done _ _ _ _ _ _ _ (get_object_eq _ _ _ Ho)); try rewrite E; try reflexivity. now injection E as <-.
Qed.
Lemma stays_slot o o' a b : stays o o' -> slot o a = Some b -> slot o' a = Some b.
Proof. intros [] E. destruct a; cbn [slot] in *; try discriminate; auto. now rewrite st_pvs. Qed.
Lemma bind_ok A B (p : prog K A) (k : A -> prog K B) m b m' : pbind p k m = (Ok b, m') ->
  exists a m1, p m = (Ok a, m1) /\ k a m1 = (Ok b, m').
Proof. unfold pbind. destruct (p m) as [[a|e] m1]; [eauto|discriminate]. Qed.
Lemma set_ok A m i o (a b : A) m' : (let* _ := set_object i o in done a) m = (Ok b, m') -> nth_error (objects m) i <> None ->
  a = b /\ nth_error (objects m') i = Some o.
Proof.
  unfold pbind, set_object, done. intros [= <- <-] H. split; [reflexivity|]. cbn. apply update_same. now apply nth_error_Some.
Qed.
Lemma get_object_ok m i o m' : get_object i m = (Ok o, m') -> m' = m /\ nth_error (objects m) i = Some o.
Proof. unfold get_object. destruct (nth_error (objects m) i); [intros [= <- <-]; auto|discriminate]. Qed.
Lemma alloc_ok m x a m' : alloc x m = (Ok a, m') -> objects m' = objects m.
Proof. now intros [= _ <-]. Qed.
Lemma load_spec_ok m a x m' : load_spec a m = (Ok x, m') -> m' = m.
Proof. unfold load_spec, load, pbind. destruct (nth_error (arrays m) a) as [[]|]; cbn; intros H; inversion H; reflexivity. Qed.
Lemma load_mat_ok m a x m' : load_mat a m = (Ok x, m') -> m' = m.
Proof. unfold load_mat, load, pbind. destruct (nth_error (arrays m) a) as [[]|]; cbn; intros H; inversion H; reflexivity. Qed.
Lemma invert_slots m i u v m' : do_invert_pv T i m = (Ok (u, v), m') ->
  exists o, nth_error (objects m') i = Some o /\ t_u o = Some u /\ t_v o = Some v.
Proof.
  unfold do_invert_pv. intros H. apply bind_ok in H as [a [m1 [_ H]]]. apply bind_ok in H as [o [m2 [Ho H]]].
  apply get_object_ok in Ho as [-> Ho]. apply bind_ok in H as [x [m3 [Hx H]]]. apply load_spec_ok in Hx as ->. cbv zeta in H.
  apply bind_ok in H as [u' [m4 [Hu H]]]. apply bind_ok in H as [v' [m5 [Hv H]]]. apply alloc_ok in Hu, Hv.
  apply set_ok in H as [E H]; [|congruence]. injection E as <- <-. eexists. split; [exact H|]. now split.
Qed.
Lemma slot_filled m i s a b m' : sound T D m -> shows m i s -> keeps a = true -> get_attribute T D a i m = (Ok b, m') ->
  exists o, nth_error (objects m') i = Some o /\ slot o a = Some b.
Proof.
  intros S Hs Ka H. destruct (gives_attribute m i s a S Hs) as [S' [E' _]]. rewrite H in S', E'. cbn [snd] in S', E'.
  obj Hs o0 Ho0 Eg0 Et0 Ex0.
  assert (Gpv : forall m m' b, get_pv T i m = (Ok b, m') -> exists o, nth_error (objects m') i = Some o /\ t_pv o = Some b).
  { clear. intros m m' b H. unfold get_pv in H. apply bind_ok in H as [o [m1 [Ho H]]]. apply get_object_ok in Ho as [-> Ho].
    destruct (t_pv o) as [c|] eqn:Ec; [injection H as <- <-; eauto|].
    apply bind_ok in H as [x [m2 [Hx H]]]. apply load_spec_ok in Hx as ->. apply bind_ok in H as [c [m3 [Hc H]]]. apply alloc_ok in Hc.
    apply set_ok in H as [<- H]; [|congruence]. eexists. split; [exact H|reflexivity]. }
  destruct a; try discriminate Ka; cbn [get_attribute slot] in *; eauto.
  - unfold get_pv_spectral in H. rewrite (bind_done _ _ _ _ _ _ _ (get_object_eq _ _ _ Ho0)) in H. injection H as <- <-. eauto.
  - unfold get_u in H. rewrite (bind_done _ _ _ _ _ _ _ (get_object_eq _ _ _ Ho0)) in H.
    destruct (t_u o0) as [c|] eqn:Ec; [injection H as <- <-; eauto|]. apply bind_ok in H as [[u v] [m1 [Hw [= <- <-]]]].
    apply invert_slots in Hw as [o [H1 [H2 H3]]]. eauto.
  - unfold get_v in H. rewrite (bind_done _ _ _ _ _ _ _ (get_object_eq _ _ _ Ho0)) in H.
    destruct (t_v o0) as [c|] eqn:Ec; [injection H as <- <-; eauto|]. apply bind_ok in H as [[u v] [m1 [Hw [= <- <-]]]].
    apply invert_slots in Hw as [o [H1 [H2 H3]]]. eauto.
  - unfold get_streamfunction in H. rewrite (bind_done _ _ _ _ _ _ _ (get_object_eq _ _ _ Ho0)) in H.
    destruct (t_streamfunction o0) as [c|] eqn:Ec; [injection H as <- <-; eauto|].
    apply bind_ok in H as [a [m1 [_ H]]]. apply bind_ok in H as [a' [m2 [_ H]]]. apply bind_ok in H as [x [m3 [_ H]]].
    apply bind_ok in H as [c [m4 [_ H]]]. apply bind_ok in H as [o [m5 [Ho H]]]. apply get_object_ok in Ho as [-> Ho].
    apply set_ok in H as [<- H]; [|congruence]. eexists. split; [exact H|reflexivity].
  - unfold get_pv_zonalized in H. rewrite (bind_done _ _ _ _ _ _ _ (get_object_eq _ _ _ Ho0)) in H.
    destruct (t_pv_zonalized o0) as [c|] eqn:Ec; [injection H as <- <-; eauto|].
    apply bind_ok in H as [a [m1 [_ H]]]. apply bind_ok in H as [a' [m2 [_ H]]]. apply bind_ok in H as [x [m3 [_ H]]].
    apply bind_ok in H as [c [m4 [_ H]]]. apply bind_ok in H as [o [m5 [Ho H]]]. apply get_object_ok in Ho as [-> Ho].
    apply set_ok in H as [<- H]; [|congruence]. eexists. split; [exact H|reflexivity].
  - unfold get_falwa in H. rewrite (bind_done _ _ _ _ _ _ _ (get_object_eq _ _ _ Ho0)) in H.
    destruct (t_falwa o0) as [c|] eqn:Ec; [injection H as <- <-; eauto|].
    apply bind_ok in H as [a [m1 [_ H]]]. apply bind_ok in H as [a' [m2 [_ H]]]. apply bind_ok in H as [x [m3 [_ H]]].
    apply bind_ok in H as [c [m4 [_ H]]]. apply bind_ok in H as [o [m5 [Ho H]]]. apply get_object_ok in Ho as [-> Ho].
    apply set_ok in H as [<- H]; [|congruence]. eexists. split; [exact H|reflexivity].
Qed.
Theorem kept_again own l m i s a b m' : sound T D m -> shows m i s -> keeps a = true ->
  get_attribute T D a i m = (Ok b, m') -> Forall (unshared m') own -> careful T D M own l m' ->
  get_attribute T D a i (script T D M l m') = (Ok b, script T D M l m').
Proof.
  intros S Hs Ka H HO HC. destruct (slot_filled m i s a b m' S Hs Ka H) as [o [Ho Eo]].
  destruct (gives_attribute m i s a S Hs) as [S' _]. rewrite H in S'. cbn in S'.
  destruct (careful_ok l own m' S' HO HC) as [_ [_ Q]]. destruct (Q i o Ho) as [o' [Ho' St]].
  apply (slot_again _ i o' a b Ho'). now apply (stays_slot o).
Qed.

(** ** writing into an array that a State keeps *)
Lemma written_pv m i s b m1 X : sound T D m -> shows m i s -> get_pv T i m = (Ok b, m1) ->
  let m2 := snd (store b (FM X) m1) in
  shows m2 i s /\ get_pv T i m2 = (Ok b, m2) /\ holds m2 b (FM X)
  /\ (exists c m3, get_attribute T D Aenstrophy i m2 = (Ok c, m3) /\ holds m3 c (FM (enstrophy_of X)))
  /\ (exists c m3, get_attribute T D Avorticity i m2 = (Ok c, m3) /\ holds m3 c (FM (msub X (g_fcor2 (s_grid s))))).
Proof.
  intros S Hs H. destruct (slot_filled m i s Apv b m1 S Hs eq_refl H) as [o [Ho Eo]].
  destruct (gives_pv m i s S Hs) as [S1 [E1 Hb]]. rewrite H in S1, E1, Hb. cbn [fst snd] in S1, E1, Hb.
  pose proof (extends_shows _ _ _ _ E1 Hs) as Hs1. destruct (shows_object m1 i s Hs1) as [o1 [Ho1 [Eg [Et Ex]]]].
  rewrite Ho in Ho1. injection Ho1 as <-. cbn zeta. unfold store. cbn [snd]. set (m2 := mkMemory _ _).
  assert (Ho2 : nth_error (objects m2) i = Some o) by exact Ho.
  assert (Hb2 : holds m2 b (FM X)) by (apply update_holds_same; now apply nth_error_lt in Hb).
  assert (Hs2 : shows m2 i s).
  { exists o, (s_pvs s). split; [exact Ho|]. split; [|rewrite Eg, Et; now destruct s].
    apply update_holds_other; [|exact Ex]. intros E. rewrite <- E in Ex. unfold holds in *. congruence. }
  assert (Hp : get_pv T i m2 = (Ok b, m2)) by exact (slot_again m2 i o Apv b Ho2 Eo).
  split; [exact Hs2|]. split; [exact Hp|]. split; [exact Hb2|].
  cbn [get_attribute]. unfold get_enstrophy, get_vorticity.
  rewrite !(bind_done _ _ _ _ _ _ _ Hp). rewrite (bind_done _ _ _ _ _ _ _ (get_object_eq _ _ _ Ho2)).
  rewrite !(bind_done _ _ _ _ _ _ _ (load_mat_eq _ _ _ Hb2)). rewrite Eg.
  split; (eexists; eexists; split; [reflexivity|]; unfold holds; cbn [arrays]; apply nth_error_end).
Qed.
End P.
