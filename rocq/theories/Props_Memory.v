(** Arrays in memory: what is shared, and that nothing gets modified (C138). *)
From Coq Require Export String.
From Verif Require Import Base Model_Grid Model_Time Model_Spectral Model_State Model_Lazy Model_Run Model_RHS Model_Memory.
From Verif Require Import Spec_State Spec_Memory Spec_Instance Proofs_Base Proofs_Instance Proofs_Memory.
From Coquelicot Require Import Coquelicot.
From Coq Require Import List Lia Lra.
Import ListNotations.
Open Scope R_scope.

(** growth of the memory changes nothing that was there *)
Theorem C138_growth : forall K (m m' : memory K), extends m m' -> preserved m m'.
Proof. exact (@extends_preserved). Qed.
Print Assumptions C138_growth.

(** reading an attribute changes nothing that was there and hands out an array
    with the value of the attribute *)
Theorem C138_attributes : forall K T D (m : memory K) i s a, sound T D m -> shows m i s ->
  outcome T D m (get_attribute T D a i m) (field_value T D s a) (fun m' b y => holds m' b y).
Proof. exact (@gives_attribute). Qed.
Print Assumptions C138_attributes.

(** evaluating a forcing expression, too *)
Theorem C138_forcing : forall K T D (a : obj K), forcing_program T D (do_call T a) (call T a).
Proof. exact (@out_call). Qed.
Print Assumptions C138_forcing.

(** an integration changes nothing that was there; its results are those of the
    integration without memory *)
Theorem C138_run : forall K T D (M : program_model K) (N : bmodel K), same_model T D M N ->
  forall fuel m i s dt tend save, sound T D m -> shows m i s ->
  outcome T D m (do_run T M fuel i dt tend save m) (run T N fuel s dt tend save)
    (fun m' a y => shows m' (fst a) (fst y)
      /\ Forall2 (shows m') (snd a) (match snd y with PlainList l | AStateList l => l end)).
Proof. exact (@out_run). Qed.
Print Assumptions C138_run.

(** a user who writes only into arrays of their own never changes a State, and
    attributes keep their values *)
Theorem C138_careful : forall K T D (M : program_model K) (N : bmodel K), same_model T D M N ->
  forall l own m, sound T D m -> Forall (unshared m) own -> careful T D M own l m ->
  let m' := script T D M l m in
  sound T D m' /\ forall i s, shows m i s -> shows m' i s
    /\ forall a, outcome T D m' (get_attribute T D a i m') (field_value T D s a) (fun m'' b y => holds m'' b y).
Proof.
  intros K T D M N H l own m S U C. destruct (careful_ok T D M N H l own m S U C) as [S' [Q _]]. split; [exact S'|].
  intros i s Hs. split; [exact (Q i s Hs)|]. intros a. apply gives_attribute; auto.
Qed.
Print Assumptions C138_careful.

(** the attributes that are not kept return a new array every time, which belongs
    to the user *)
Theorem C138_new : forall K T D (m : memory K) i s a b m', sound T D m -> shows m i s -> keeps a = false ->
  get_attribute T D a i m = (Ok b, m') ->
  (List.length (arrays m) <= b)%nat /\ unshared m' b.
Proof.
  intros K T D m i s a b m' S Hs Ka E. destruct (new_attribute T D m i s a S Hs Ka) as [_ [_ H]]. rewrite E in H. cbn in H.
  destruct (field_value T D s a); [exact (proj2 H)|contradiction].
Qed.
Print Assumptions C138_new.

(** the others return the same array every time *)
Theorem C138_kept : forall K T D (M : program_model K) (N : bmodel K), same_model T D M N ->
  forall own l m i s a b m', sound T D m -> shows m i s -> keeps a = true ->
  get_attribute T D a i m = (Ok b, m') -> Forall (unshared m') own -> careful T D M own l m' ->
  get_attribute T D a i (script T D M l m') = (Ok b, script T D M l m') /\ ~ In b own.
Proof.
  intros K T D M N H own l m i s a b m' S Hs Ka E U C. split; [exact (kept_again T D M N H own l m i s a b m' S Hs Ka E U C)|].
  intros I. rewrite Forall_forall in U. destruct (U b I) as [_ U']. destruct (slot_filled T D m i s a b m' S Hs Ka E) as [o [Ho Eo]].
  apply (U' i o Ho), in_slots. destruct a; try discriminate Ka; cbn [slot] in Eo; auto 8. left. congruence.
Qed.
Print Assumptions C138_kept.

(** State(g, time, pv=array) does not keep the array of the user *)
Theorem C138_pv_argument : forall K T D (m : memory K) g time a f, sound T D m -> holds m a (FM f) -> unshared m a ->
  exists i m', state_of_pv T g time a m = (Ok i, m') /\ forall x,
    shows (snd (store a x m')) i (mkState g time (to_spectral T g f)) /\ sound T D (snd (store a x m')).
Proof.
  intros K T D m g time a f S Ha U. destruct (out_state_of_pv T D m g time a S) as [S1 [E1 F]].
  destruct (F f Ha) as [i [Ei Hi]]. exists i, (snd (state_of_pv T g time a m)).
  split; [rewrite <- Ei; apply surjective_pairing|]. intros x. pose proof (extends_unshared _ _ _ E1 U) as U1.
  split; [now apply store_shows|now apply store_sound].
Qed.
Print Assumptions C138_pv_argument.

(** but State(g, time, pv_spectral=array) does: what the user writes into it later
    becomes the PV of the State *)
Theorem C138_pv_spectral_argument : forall K T D (m : memory K) g time a x x', sound T D m -> holds m a (FS x) -> unshared m a ->
  exists i m', state_of_spectral g time a m = (Ok i, m') /\ shows m' i (mkState g time x)
    /\ shows (snd (store a (FS x') m')) i (mkState g time x').
Proof.
  intros K T D m g time a x x' S Ha U. destruct (wrap_sound T D m g time a x S U Ha) as [S1 [K1 [H1 _]]].
  exists (List.length (objects m)), (snd (state_of_spectral g time a m)). split; [reflexivity|]. split; [exact H1|].
  exists (mkStored g time a None None None None None None), x'. split; [cbn; apply nth_error_end|]. split; [|reflexivity].
  apply update_holds_same. exact (proj1 U).
Qed.
Print Assumptions C138_pv_spectral_argument.

(** and what the user writes into the array returned by state.pv becomes the
    gridded PV of the State, but not its spectral PV *)
Theorem C138_written_pv : forall K T D (m : memory K) i s b m1 X, sound T D m -> shows m i s -> get_attribute T D Apv i m = (Ok b, m1) ->
  let m2 := snd (store b (FM X) m1) in
  shows m2 i s /\ get_attribute T D Apv i m2 = (Ok b, m2) /\ holds m2 b (FM X)
  /\ (exists c m3, get_attribute T D Aenstrophy i m2 = (Ok c, m3) /\ holds m3 c (FM (enstrophy_of X)))
  /\ (exists c m3, get_attribute T D Avorticity i m2 = (Ok c, m3) /\ holds m3 c (FM (msub X (g_fcor2 (s_grid s))))).
Proof. exact (@written_pv). Qed.
Print Assumptions C138_written_pv.

(** so attributes do not keep their values if the user writes into arrays that
    attributes returned *)
Definition no_diagnostics : diagnostics := mkDiag (fun _ _ => Err ValueError) (fun _ _ => Err ValueError) (fun _ _ => Err ValueError)
  (fun _ _ => Err ValueError) (fun _ => Err ValueError) (fun _ _ _ => Err ValueError).
Definition some_state : state numR := mkState (d1_grid 1 1) (@VNum numR 0) [RtoC 0; RtoC 5; Ci].
(** a memory with one State *)
Definition one_state : memory numR :=
  mkMemory (FS (s_pvs some_state) :: nil) (mkStored (d1_grid 1 1) (@VNum numR 0) 0 None None None None None None :: nil).
Lemma one_state_shows : shows one_state 0 some_state.
Proof. exists (mkStored (d1_grid 1 1) (@VNum numR 0) 0 None None None None None None), (s_pvs some_state). now repeat split. Qed.
Lemma one_state_sound T D : sound T D one_state.
Proof.
  intros [|[|i]] o H; cbn in H; try discriminate. injection H as <-. exists some_state. split; [exact one_state_shows|].
  repeat split; try (intros b; cbn; discriminate).
Qed.
Theorem C138_written_refuted :
  ~ (forall K T D (m : memory K) i s a b m1 x, sound T D m -> shows m i s -> get_attribute T D a i m = (Ok b, m1) ->
      exists c m3, get_attribute T D Aenstrophy i (snd (store b x m1)) = (Ok c, m3) /\ holds m3 c (FM (s_enstrophy T s))).
Proof.
  intros H. pose (X r := mat_of 3 4 (fun _ _ => r)).
  destruct (C138_attributes numR d1_family no_diagnostics one_state 0 some_state Apv (one_state_sound _ _) one_state_shows) as [_ [_ G]].
  destruct (get_attribute d1_family no_diagnostics Apv 0 one_state) as [[b|e] m1] eqn:E; [|contradiction].
  assert (Z : forall r, enstrophy_of (X r) = s_enstrophy d1_family some_state).
  { intros r. destruct (C138_written_pv numR d1_family no_diagnostics one_state 0 some_state b m1 (X r) (one_state_sound _ _) one_state_shows E)
      as [_ [_ [_ [[c [m3 [E1 H1]]] _]]]].
    destruct (H numR d1_family no_diagnostics one_state 0%nat some_state Apv b m1 (FM (X r)) (one_state_sound _ _) one_state_shows E) as [c' [m3' [E2 H2]]].
    rewrite E1 in E2. injection E2 as <- <-. unfold holds in *. congruence. }
  pose proof (f_equal (fun f => mget f 0 0) (eq_trans (Z 1) (eq_sym (Z 0)))) as Q. cbn in Q. lra.
Qed.
Print Assumptions C138_written_refuted.

(** ** Examples *)
Definition plain_program : program_model numR := mkProgram None 1 (1 / 10) None.
Example C138_same_model : same_model d1_family no_diagnostics plain_program (mkModel None 1 (1 / 10) None).
Proof. repeat split. Qed.
(** a forcing that hands out an array of the State *)
Example C138_forcing_pv : forcing_program d1_family no_diagnostics
  (fun i => @pbind numR _ _ (get_pv d1_family i) (fun a => done (VArray a))) (fun s => Ok (FMat (s_pv d1_family s))).
Proof.
  intros m i s S Hs. eapply (out_bindE _ _ _ _ _ _ _ _ _ (Ok (s_pv d1_family s)) (fun x => Ok (FMat x)));
    [exact (gives_pvM d1_family no_diagnostics m i s S Hs)|]. intros m' a b [= <-] S' E' H. now apply out_done.
Qed.
(** a user builds a State from an array, overwrites the array, reads the enstrophy,
    overwrites that, and integrates *)
Definition session : list (action numR) :=
  let f := mat_of 3 4 (fun i j => INR i) in
  DoArray (FM f) :: DoState (d1_grid 1 1) (@VNum numR 0) 0 :: DoWrite 0 (FM []) :: DoGet 0 Aenstrophy :: DoWrite 3 (FM f)
  :: DoRun 5 0 (@VNum numR 1) (@VNum numR 2) (@VNum numR 0) :: nil.
Example C138_careful_example : careful d1_family no_diagnostics plain_program [] session (mkMemory [] [])
  /\ sound d1_family no_diagnostics (mkMemory (K := numR) [] []).
Proof.
  split; [|intros [|i] o H; discriminate]. unfold session. cbn [careful keeps].
  split; [left; reflexivity|]. split; [left; reflexivity|]. exact I.
Qed.
Example C138_careless : ~ careful d1_family no_diagnostics plain_program (0%nat :: nil)
  (DoSpectral (d1_grid 1 1) (@VNum numR 0) 0 :: DoWrite 0 (FS []) :: nil) (mkMemory (FS nil :: nil) nil).
Proof. cbn. tauto. Qed.
