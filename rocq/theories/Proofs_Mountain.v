(** Proofs about the constructors of the mountains and sums of reliefs. *)
From Coq Require Export String.
From Verif Require Import Base Model_Grid Model_Time Model_Spectral Model_State Model_Run Model_RHS Model_Mountain.
From Verif Require Import Spec_Grid Spec_Spectral Spec_State Spec_Run Spec_RHS Spec_Mountain.
From Verif Require Import Proofs_Base Proofs_Region Proofs_Grid Proofs_Spectral Proofs_State Proofs_Run Proofs_RHS Proofs_Orog.
From Coq Require Import List Lia Lra.
Import ListNotations.
Open Scope R_scope.

(** ** Arguments *)
Lemma kw_get_in k n d v : NoDup (map fst k) -> In (n, v) k -> kw_get k n d = v.
Proof.
  induction k as [|[m w] k IH]; [intros _ []|]. cbn [map fst kw_get In]. intros HN [E|E]; inversion_clear HN.
  - injection E as -> ->. now rewrite String.eqb_refl.
  - destruct (String.eqb_spec m n) as [->|]; [|now apply IH]. exfalso. apply H. change n with (fst (n, v)). now apply in_map.
Qed.
Lemma kw_get_out k n d : ~ In n (map fst k) -> kw_get k n d = d.
Proof.
  induction k as [|[m w] k IH]; [reflexivity|]. cbn [map fst kw_get In]. intros H.
  destruct (String.eqb_spec m n) as [->|]; [exfalso; auto|]. apply IH. auto.
Qed.
Lemma kw_get_argument k n d v : NoDup (map fst k) -> argument k n d v -> kw_get k n d = v.
Proof. intros HN [H|[H ->]]; [now apply kw_get_in|now apply kw_get_out]. Qed.
Lemma argument_get k n d : argument k n d (kw_get k n d).
Proof.
  unfold argument. induction k as [|[m w] k IH]; cbn [kw_get map fst In]; [right; auto|].
  destruct (String.eqb_spec m n) as [->|Hn]; [left; left; reflexivity|]. destruct IH as [H|[H E]]; [left; now right|].
  right. split; [intros [|]; auto|exact E].
Qed.
Lemma in_kw_rest k names p : In p (kw_rest k names) <-> In p k /\ ~ In (fst p) names.
Proof.
  unfold kw_rest. rewrite filter_In, negb_true_iff. split; intros [A B]; split; auto.
  - intros H. rewrite <- not_true_iff_false in B. apply B, existsb_exists. exists (fst p). split; [exact H|apply String.eqb_refl].
  - apply not_true_iff_false. intros H. apply existsb_exists in H as [x [Hx E]]. apply String.eqb_eq in E. apply B. now rewrite E.
Qed.
Lemma kw_rest_nodup k names : NoDup (map fst k) -> NoDup (map fst (kw_rest k names)).
Proof.
  unfold kw_rest. induction k as [|[n v] k IH]; [auto|]. cbn [map fst filter]. intros H. inversion_clear H.
  destruct (negb _); [|now apply IH]. cbn [map fst]. constructor; [|now apply IH].
  intros H. apply H0. apply in_map_iff in H as [p [E H]]. apply filter_In in H as [H _]. apply in_map_iff. eauto.
Qed.
Lemma kw_rest_get k names n d : ~ In n names -> kw_get (kw_rest k names) n d = kw_get k n d.
Proof.
  intros H. unfold kw_rest. induction k as [|[m w] k IH]; [reflexivity|]. cbn [filter fst kw_get].
  destruct (negb (existsb (String.eqb m) names)) eqn:E; cbn [kw_get]; rewrite IH; [reflexivity|].
  destruct (String.eqb_spec m n) as [->|]; [|reflexivity]. exfalso. apply negb_false_iff, existsb_exists in E as [x [Hx E]].
  apply String.eqb_eq in E. subst x. auto.
Qed.
Lemma kw_rest_nil k a b : kw_rest (kw_rest k a) b = [] <-> names_ok (app a b) k.
Proof.
  split.
  - intros E n v H. destruct (in_dec string_dec n (app a b)) as [Q|Q]; [exact Q|exfalso].
    assert (B : In (n, v) (kw_rest (kw_rest k a) b)); [|rewrite E in B; destruct B].
    rewrite !in_kw_rest. cbn [fst]. rewrite in_app_iff in Q. tauto.
  - intros H. destruct (kw_rest (kw_rest k a) b) as [|[n v] l] eqn:E; [reflexivity|exfalso].
    assert (B : In (n, v) (kw_rest (kw_rest k a) b)) by (rewrite E; now left). rewrite !in_kw_rest in B. cbn [fst] in B.
    destruct B as [[B1 B2] B3]. apply H, in_app_or in B1 as []; auto.
Qed.

(** ** Unpacking *)
Lemma chars_length s : List.length (chars s) = String.length s.
Proof. unfold chars. rewrite map_length. induction s; cbn; auto. Qed.
Lemma unpack2_ok v : (exists p, unpack2 v = Ok p) <-> two v.
Proof.
  unfold two. split.
  - intros [p E]. destruct v as [| |s|l]; try discriminate; cbn [unpack2] in E.
    + right. exists s. split; [reflexivity|]. rewrite <- chars_length. destruct (chars s) as [|? [|? []]]; try discriminate. reflexivity.
    + left. destruct l as [|a [|b []]]; try discriminate. eauto.
  - intros [[a [b ->]]|[s [-> H]]]; cbn [unpack2]; [eauto|]. rewrite <- chars_length in H.
    destruct (chars s) as [|? [|? []]]; try discriminate. eauto.
Qed.
Lemma unpack2_err v e : unpack2 v = Err e -> ~ two v /\ (iterable v -> e = ValueError) /\ (~ iterable v -> e = TypeError).
Proof.
  intros E. split; [rewrite <- unpack2_ok, E; intros [? ?]; discriminate|]. unfold iterable.
  destruct v as [| |s|l]; cbn [unpack2] in E.
  - injection E as <-. split; [intros [[? ?]|[? ?]]; discriminate|reflexivity].
  - injection E as <-. split; [intros [[? ?]|[? ?]]; discriminate|reflexivity].
  - assert (e = ValueError) as -> by (destruct (chars s) as [|? [|? []]]; congruence). split; [reflexivity|]. intros []. eauto.
  - assert (e = ValueError) as -> by (destruct l as [|? [|? []]]; congruence). split; [reflexivity|]. intros []. eauto.
Qed.

(** ** The base class *)
Definition kind_of (s : string) : wind_kind := if String.eqb s "act" then WAct else if String.eqb s "zon" then WZon else WSbr.
Lemma base_ok k kind fact : kw_rest k base_names = [] -> kw_get k "wind" wind_default = PvSeq [PvStr kind; fact] -> In kind wind_names ->
  base_init k = Ok (mkBase (kw_get k "scale_height" (PvNum 10000)) (kw_get k "fcor_ref" PvNone) (kind_of kind) fact).
Proof.
  intros E1 E2 H. unfold base_init. fold base_names wind_default. rewrite E1, E2. cbn [unpack2 bind].
  destruct H as [<-|[<-|[<-|[]]]]; reflexivity.
Qed.
Lemma base_names_err k : kw_rest k base_names <> [] -> base_init k = Err TypeError.
Proof. unfold base_init. fold base_names. destruct (kw_rest k base_names); [congruence|reflexivity]. Qed.
Lemma base_wind_err k : kw_rest k base_names = [] -> ~ wind_ok (kw_get k "wind" wind_default) ->
  (iterable (kw_get k "wind" wind_default) -> base_init k = Err ValueError) /\ (~ iterable (kw_get k "wind" wind_default) -> base_init k = Err TypeError).
Proof.
  intros E H. unfold base_init. fold base_names wind_default. rewrite E. set (v := kw_get k "wind" wind_default) in *.
  destruct (unpack2 v) as [[kind fact]|e] eqn:EU; cbn [bind].
  - assert (I : iterable v). { unfold iterable. destruct v; cbn in EU; try discriminate; eauto. }
    split; [intros _|intros Q; now destruct Q].
    assert (Q : forall t, In t wind_names -> match kind with PvStr t' => String.eqb t' t | _ => false end = false).
    { intros t Ht. destruct kind as [| |t'|]; try reflexivity. destruct (String.eqb_spec t' t) as [->|]; [exfalso|reflexivity].
      destruct v as [| |w|l]; cbn [unpack2] in EU; try discriminate.
      - unfold chars in EU. destruct (list_ascii_of_string w) as [|a [|b []]]; cbn in EU; try discriminate. injection EU as <- <-.
        destruct Ht as [Ht|[Ht|[Ht|[]]]]; discriminate Ht.
      - destruct l as [|a [|b []]]; try discriminate. injection EU as -> ->. apply H. exists t, fact. auto. }
    unfold wind_names in Q. rewrite !Q by (cbn; auto). reflexivity.
  - destruct (unpack2_err v e EU) as [_ [A B]]. split; intros I; [now rewrite A|now rewrite B].
Qed.
Lemma wind_default_ok : wind_ok wind_default.
Proof. exists "act"%string, (PvNum 1). cbn. auto. Qed.
Lemma wind_ok_get k : NoDup (map fst k) -> (forall v, In ("wind"%string, v) k -> wind_ok v) <-> wind_ok (kw_get k "wind" wind_default).
Proof.
  intros HN. split.
  - intros H. destruct (argument_get k "wind" wind_default) as [A|[_ ->]]; [now apply H|exact wind_default_ok].
  - intros H v Hv. now rewrite (kw_get_in _ _ _ _ HN Hv) in H.
Qed.

(** ** GaussianMountain *)
Definition g3 : list string := ["height"; "center"; "stdev"]%string.
Definition s4 : list string := ["height"; "center_lat"; "stdev_lat"; "wavenumber"]%string.
(** the standard deviations of the two directions *)
Definition widths (v : pv) : res (R * R) :=
  let v := match v with PvNum _ => PvSeq [v; v] | _ => v end in
  do s0 <- getitem v 0; do a <- square s0; do s1 <- getitem v 1; do b <- square s1; Ok (a, b).
Lemma gaussian_eq k : gaussian_mountain k =
  do b <- base_init (kw_rest k g3); do c <- unpack2 (kw_get k "center" center_default);
  do w <- widths (kw_get k "stdev" stdev_default);
  Ok (MGauss b (kw_get k "height" (PvNum 1500)) (fst c) (snd c) (fst w) (snd w)).
Proof.
  unfold gaussian_mountain, widths. fold g3 center_default stdev_default. destruct (base_init _); [|reflexivity]. cbn [bind].
  destruct (unpack2 _); [|reflexivity]. cbn [bind]. set (v := match kw_get k "stdev" stdev_default with PvNum _ => _ | _ => _ end).
  destruct (getitem v 0) as [s0|]; [|reflexivity]. cbn [bind]. destruct (square s0); [|reflexivity]. cbn [bind].
  destruct (getitem v 1) as [s1|]; [|reflexivity]. cbn [bind]. destruct (square s1); reflexivity.
Qed.
Lemma widths_num x : widths (PvNum x) = Ok (x ^ 2, x ^ 2).
Proof. reflexivity. Qed.
Lemma widths_pair x y l : widths (PvSeq (PvNum x :: PvNum y :: l)) = Ok (x ^ 2, y ^ 2).
Proof. reflexivity. Qed.
Lemma widths_ok v : (exists w, widths v = Ok w) <-> width_ok v.
Proof.
  unfold width_ok. split.
  - intros [w E]. destruct v as [|x|s|l]; [discriminate E|left; eauto| |right].
    + exfalso. destruct s; discriminate E.
    + destruct l as [|[] l]; try discriminate. cbn in E. destruct l as [|[] l]; try discriminate. eauto.
  - intros [[x ->]|[x [y [l ->]]]]; [rewrite widths_num|rewrite widths_pair]; eauto.
Qed.
Lemma widths_err v e : widths v = Err e -> ~ width_ok v /\ (width_short v -> e = IndexError) /\ (~ width_short v -> e = TypeError).
Proof.
  intros E. split; [rewrite <- widths_ok, E; intros [? ?]; discriminate|]. unfold width_short.
  destruct v as [|x|s|l].
  - injection E as <-. split; [intros [|[|[? ?]]]; discriminate|reflexivity].
  - discriminate E.
  - destruct s as [|c s]; injection E as <-.
    + split; [reflexivity|]. intros Q. destruct Q. now left.
    + split; [intros [|[|[? ?]]]; discriminate|reflexivity].
  - destruct l as [|[|x|s|l'] l]; cbn in E.
    + injection E as <-. split; [reflexivity|]. intros Q. destruct Q. auto.
    + injection E as <-. split; [intros [|[|[? ?]]]; discriminate|reflexivity].
    + destruct l as [|y l]; cbn in E.
      * injection E as <-. split; [reflexivity|]. intros Q. destruct Q. eauto.
      * destruct y; try discriminate E; injection E as <-; (split; [intros [|[|[? ?]]]; discriminate|reflexivity]).
    + injection E as <-. split; [intros [|[|[? ?]]]; discriminate|reflexivity].
    + injection E as <-. split; [intros [|[|[? ?]]]; discriminate|reflexivity].
Qed.
Lemma names_split a k : kw_rest (kw_rest k a) base_names = [] <-> names_ok (app a base_names) k.
Proof. apply kw_rest_nil. Qed.
Lemma rest_wind a k : ~ In "wind"%string a -> kw_get (kw_rest k a) "wind" wind_default = kw_get k "wind" wind_default.
Proof. apply kw_rest_get. Qed.
Ltac notin := cbn; intuition discriminate.

(** the base class as seen from a subclass with parameters [a] *)
Lemma sub_base_ok a k kind fact : ~ In "wind"%string a -> ~ In "scale_height"%string a -> ~ In "fcor_ref"%string a ->
  names_ok (app a base_names) k -> kw_get k "wind" wind_default = PvSeq [PvStr kind; fact] -> In kind wind_names ->
  base_init (kw_rest k a) = Ok (mkBase (kw_get k "scale_height" (PvNum 10000)) (kw_get k "fcor_ref" PvNone) (kind_of kind) fact).
Proof.
  intros H1 H2 H3 HN E H. rewrite (base_ok _ kind fact); rewrite ?kw_rest_get by assumption; auto. now apply names_split.
Qed.
Lemma sub_base_iff a k : NoDup (map fst k) -> ~ In "wind"%string a -> ~ In "scale_height"%string a -> ~ In "fcor_ref"%string a ->
  (exists b, base_init (kw_rest k a) = Ok b) <-> names_ok (app a base_names) k /\ forall v, In ("wind"%string, v) k -> wind_ok v.
Proof.
  intros HD H1 H2 H3. rewrite (wind_ok_get k HD), <- names_split. split.
  - intros [b E]. destruct (kw_rest (kw_rest k a) base_names) eqn:EN; [|rewrite base_names_err in E by (rewrite EN; discriminate); discriminate].
    split; [reflexivity|]. rewrite <- (rest_wind a k H1).
    destruct (kw_get (kw_rest k a) "wind" wind_default) as [|x|w|l] eqn:EV.
    + exfalso. revert E. unfold base_init. fold base_names wind_default. rewrite EN, EV. discriminate.
    + exfalso. revert E. unfold base_init. fold base_names wind_default. rewrite EN, EV. discriminate.
    + exfalso. destruct (base_wind_err (kw_rest k a) EN) as [A _].
      { rewrite EV. intros [? [? [Q _]]]. discriminate. }
      rewrite A in E; [discriminate|]. rewrite EV. unfold iterable. eauto.
    + destruct l as [|[|x|s|l'] [|f []]]; try (exfalso; revert E; unfold base_init; fold base_names wind_default; rewrite EN, EV; discriminate).
      destruct (in_dec string_dec s wind_names) as [I|I]; [exists s, f; auto|exfalso].
      destruct (base_wind_err (kw_rest k a) EN) as [A _].
      { rewrite EV. intros [t [? [Q QI]]]. injection Q as -> ->. auto. }
      rewrite A in E; [discriminate|]. rewrite EV. unfold iterable. eauto.
  - intros [EN [kind [fact [E I]]]]. eexists. apply sub_base_ok with (kind := kind) (fact := fact); auto. now apply names_split.
Qed.
Lemma sub_base_names_err a k : ~ names_ok (app a base_names) k -> base_init (kw_rest k a) = Err TypeError.
Proof. rewrite <- names_split. apply base_names_err. Qed.
Lemma sub_base_wind_err a k v : NoDup (map fst k) -> ~ In "wind"%string a -> names_ok (app a base_names) k -> In ("wind"%string, v) k -> ~ wind_ok v ->
  (iterable v -> base_init (kw_rest k a) = Err ValueError) /\ (~ iterable v -> base_init (kw_rest k a) = Err TypeError).
Proof.
  intros HD H1 HN HV HW. apply names_split in HN. pose proof (kw_get_in k _ wind_default _ HD HV) as E.
  rewrite <- (rest_wind a k H1) in E. rewrite <- E. apply base_wind_err; [exact HN|now rewrite E].
Qed.

Lemma center_get k : NoDup (map fst k) -> (forall v, In ("center"%string, v) k -> two v) <-> two (kw_get k "center" center_default).
Proof.
  intros HN. split.
  - intros H. destruct (argument_get k "center" center_default) as [A|[_ ->]]; [now apply H|left; unfold center_default; eauto].
  - intros H v Hv. now rewrite (kw_get_in _ _ _ _ HN Hv) in H.
Qed.
Lemma stdev_get k : NoDup (map fst k) -> (forall v, In ("stdev"%string, v) k -> width_ok v) <-> width_ok (kw_get k "stdev" stdev_default).
Proof.
  intros HN. split.
  - intros H. destruct (argument_get k "stdev" stdev_default) as [A|[_ ->]]; [now apply H|right; unfold stdev_default; eauto].
  - intros H v Hv. now rewrite (kw_get_in _ _ _ _ HN Hv) in H.
Qed.
Lemma g3_wind : ~ In "wind"%string g3 /\ ~ In "scale_height"%string g3 /\ ~ In "fcor_ref"%string g3.
Proof. unfold g3. repeat split; notin. Qed.
Lemma s4_wind : ~ In "wind"%string s4 /\ ~ In "scale_height"%string s4 /\ ~ In "fcor_ref"%string s4.
Proof. unfold s4. repeat split; notin. Qed.
Lemma gaussian_iff k : NoDup (map fst k) -> (exists m, gaussian_mountain k = Ok m) <-> gauss_ok k.
Proof.
  intros HD. destruct g3_wind as [W1 [W2 W3]]. unfold gauss_ok. change gauss_names with (app g3 base_names).
  rewrite (center_get k HD), (stdev_get k HD), <- unpack2_ok, <- widths_ok.
  rewrite <- and_assoc, <- (sub_base_iff g3 k HD W1 W2 W3). rewrite gaussian_eq. split.
  - intros [m E]. destruct (base_init _); [|discriminate]. cbn [bind] in E. destruct (unpack2 _); [|discriminate]. cbn [bind] in E.
    destruct (widths _); [|discriminate]. repeat split; eauto.
  - intros [[b Eb] [[c Ec] [w Ew]]]. rewrite Eb, Ec, Ew. cbn [bind]. eauto.
Qed.
Lemma gaussian_error k : NoDup (map fst k) ->
  (~ names_ok gauss_names k -> gaussian_mountain k = Err TypeError)
  /\ (names_ok gauss_names k -> forall v, In ("wind"%string, v) k -> ~ wind_ok v ->
        (iterable v -> gaussian_mountain k = Err ValueError) /\ (~ iterable v -> gaussian_mountain k = Err TypeError))
  /\ (names_ok gauss_names k -> (forall v, In ("wind"%string, v) k -> wind_ok v) -> forall v, In ("center"%string, v) k -> ~ two v ->
        (iterable v -> gaussian_mountain k = Err ValueError) /\ (~ iterable v -> gaussian_mountain k = Err TypeError))
  /\ (names_ok gauss_names k -> (forall v, In ("wind"%string, v) k -> wind_ok v) -> (forall v, In ("center"%string, v) k -> two v) ->
        forall v, In ("stdev"%string, v) k -> ~ width_ok v ->
        (width_short v -> gaussian_mountain k = Err IndexError) /\ (~ width_short v -> gaussian_mountain k = Err TypeError)).
Proof.
  intros HD. destruct g3_wind as [W1 [W2 W3]]. change gauss_names with (app g3 base_names). rewrite gaussian_eq. repeat match goal with |- _ /\ _ => split end.
  - intros H. now rewrite sub_base_names_err.
  - intros HN v HV HW. destruct (sub_base_wind_err g3 k v HD W1 HN HV HW) as [A B]. split; intros I; [now rewrite A|now rewrite B].
  - intros HN HW v HV H2. destruct (proj2 (sub_base_iff g3 k HD W1 W2 W3) (conj HN HW)) as [b ->]. cbn [bind].
    rewrite (kw_get_in _ _ _ _ HD HV). destruct (unpack2 v) as [p|e] eqn:E; [exfalso; apply H2, unpack2_ok; eauto|].
    destruct (unpack2_err v e E) as [_ [A B]]. cbn [bind]. split; intros I; [now rewrite A|now rewrite B].
  - intros HN HW HC v HV H2. destruct (proj2 (sub_base_iff g3 k HD W1 W2 W3) (conj HN HW)) as [b ->]. cbn [bind].
    rewrite (center_get k HD) in HC. apply unpack2_ok in HC as [c ->]. cbn [bind].
    rewrite (kw_get_in _ _ _ _ HD HV). destruct (widths v) as [p|e] eqn:E; [exfalso; apply H2, widths_ok; eauto|].
    destruct (widths_err v e E) as [_ [A B]]. cbn [bind]. split; intros I; [now rewrite A|now rewrite B].
Qed.
Lemma sine_iff k : NoDup (map fst k) -> (exists m, zonal_sine_mountains k = Ok m) <-> sine_ok k.
Proof.
  intros HD. destruct s4_wind as [W1 [W2 W3]]. unfold sine_ok. change sine_names with (app s4 base_names).
  rewrite <- and_assoc, <- (sub_base_iff s4 k HD W1 W2 W3). unfold zonal_sine_mountains. fold s4. split.
  - intros [m E]. destruct (base_init _); [|discriminate]. cbn [bind] in E. split; [eauto|]. intros v HV.
    rewrite (kw_get_in _ _ _ _ HD HV) in E. destruct v; try discriminate. eauto.
  - intros [[b ->] H]. cbn [bind]. destruct (argument_get k "stdev_lat" (PvNum 10)) as [A|[_ ->]]; [|cbn; eauto].
    destruct (H _ A) as [x ->]. cbn. eauto.
Qed.
Lemma sine_error k : NoDup (map fst k) ->
  (~ names_ok sine_names k -> zonal_sine_mountains k = Err TypeError)
  /\ (names_ok sine_names k -> forall v, In ("wind"%string, v) k -> ~ wind_ok v ->
        (iterable v -> zonal_sine_mountains k = Err ValueError) /\ (~ iterable v -> zonal_sine_mountains k = Err TypeError))
  /\ (names_ok sine_names k -> (forall v, In ("wind"%string, v) k -> wind_ok v) -> forall v, In ("stdev_lat"%string, v) k ->
        (forall x, v <> PvNum x) -> zonal_sine_mountains k = Err TypeError).
Proof.
  intros HD. destruct s4_wind as [W1 [W2 W3]]. change sine_names with (app s4 base_names). unfold zonal_sine_mountains. fold s4. repeat match goal with |- _ /\ _ => split end.
  - intros H. now rewrite sub_base_names_err.
  - intros HN v HV HW. destruct (sub_base_wind_err s4 k v HD W1 HN HV HW) as [A B]. split; intros I; [now rewrite A|now rewrite B].
  - intros HN HW v HV H2. destruct (proj2 (sub_base_iff s4 k HD W1 W2 W3) (conj HN HW)) as [b ->]. cbn [bind].
    rewrite (kw_get_in _ _ _ _ HD HV). destruct v as [|x| |]; try reflexivity. now destruct (H2 x).
Qed.

(** ** The mountains built *)
Section Built.
Variables (k : kwds) (kind : string) (fact hs fc : pv).
Hypotheses (HD : NoDup (map fst k)) (AW : argument k "wind" wind_default (PvSeq [PvStr kind; fact])) (HK : In kind wind_names)
  (AH : argument k "scale_height" (PvNum 10000) hs) (AF : argument k "fcor_ref" PvNone fc).
Lemma built_base a : ~ In "wind"%string a -> ~ In "scale_height"%string a -> ~ In "fcor_ref"%string a -> names_ok (app a base_names) k ->
  base_init (kw_rest k a) = Ok (mkBase hs fc (kind_of kind) fact).
Proof.
  intros H1 H2 H3 HN. rewrite (sub_base_ok a k kind fact); auto; [|now apply kw_get_argument].
  now rewrite (kw_get_argument _ _ _ _ HD AH), (kw_get_argument _ _ _ _ HD AF).
Qed.
Lemma gaussian_value h clon clat sx sy : names_ok gauss_names k -> argument k "height" (PvNum 1500) h ->
  argument k "center" center_default (PvSeq [clon; clat]) ->
  (exists l, argument k "stdev" stdev_default (PvSeq (PvNum sx :: PvNum sy :: l))) \/ (argument k "stdev" stdev_default (PvNum sx) /\ sy = sx) ->
  gaussian_mountain k = Ok (MGauss (mkBase hs fc (kind_of kind) fact) h clon clat (sx ^ 2) (sy ^ 2)).
Proof.
  intros HN H1 H2 H3. destruct g3_wind as [W1 [W2 W3]]. rewrite gaussian_eq, (built_base g3 W1 W2 W3 HN). cbn [bind].
  rewrite (kw_get_argument _ _ _ _ HD H1), (kw_get_argument _ _ _ _ HD H2). cbn [unpack2 bind fst snd].
  destruct H3 as [[l H3]|[H3 ->]]; rewrite (kw_get_argument _ _ _ _ HD H3); [rewrite widths_pair|rewrite widths_num]; reflexivity.
Qed.
Lemma sine_value h clat sy w : names_ok sine_names k -> argument k "height" (PvNum 1500) h -> argument k "center_lat" (PvNum 45) clat ->
  argument k "stdev_lat" (PvNum 10) (PvNum sy) -> argument k "wavenumber" (PvNum 4) w ->
  zonal_sine_mountains k = Ok (MSine (mkBase hs fc (kind_of kind) fact) h clat (sy ^ 2) w).
Proof.
  intros HN H1 H2 H3 H4. destruct s4_wind as [W1 [W2 W3]]. unfold zonal_sine_mountains. fold s4. rewrite (built_base s4 W1 W2 W3 HN). cbn [bind].
  now rewrite (kw_get_argument _ _ _ _ HD H1), (kw_get_argument _ _ _ _ HD H2), (kw_get_argument _ _ _ _ HD H3), (kw_get_argument _ _ _ _ HD H4).
Qed.
End Built.
Lemma kind_of_mk r H kind fact f : In kind wind_names -> mk_orog r H (kind, fact) f = Ok (mkOrog r H (kind_of kind) fact f).
Proof. intros [<-|[<-|[<-|[]]]]; reflexivity. Qed.
Lemma mountain_call_eq {K} (T : sphfam) m r hs fcv f wk fact (s : state K) : mountain_base m = mkBase (PvNum hs) fcv wk (PvNum fact) ->
  fcor_of fcv f -> (forall g, exists h, mountain_orography m g = Some h /\ orography r g = Ok h) ->
  exists F, mountain_call T m s = Some F /\ orog_call T (mkOrog r hs wk fact f) s = Ok (FMat F).
Proof.
  intros E HF HO. destruct (HO (s_grid s)) as [h [E1 E2]]. unfold mountain_call, orog_call, orography_gradient. cbn [o_relief].
  rewrite E, E1, E2. cbn [bind]. destruct HF as [[-> ->]|[x [-> ->]]]; eexists; split; reflexivity.
Qed.

(** ** Sums of reliefs *)
Lemma np_interp_lin a b c x xp f h p : List.length f = List.length xp -> List.length h = List.length xp -> (0 < List.length xp)%nat ->
  (forall i, (i < List.length xp)%nat -> nth i p 0 = a * nth i f 0 + b * nth i h 0 + c) ->
  np_interp x xp p = a * np_interp x xp f + b * np_interp x xp h + c.
Proof.
  intros LF LH L0 HP. unfold np_interp. set (n := List.length xp) in *. destruct (Rltb x (nth 0 xp 0)) eqn:E0; [apply HP; lia|].
  destruct (Rleb (nth (n - 1) xp 0) x) eqn:E1; [apply HP; lia|].
  set (cnt := List.length (filter (fun a => Rleb a x) xp)).
  assert (CL : (cnt <= n - 1)%nat).
  { unfold cnt. rewrite <- (firstn_skipn (n - 1) xp), filter_app, app_length.
    assert (A : (List.length (filter (fun a => Rleb a x) (firstn (n - 1) xp)) <= n - 1)%nat).
    { pose proof (filter_length_le' (fun a => Rleb a x) (firstn (n - 1) xp)) as Q. rewrite firstn_length in Q. lia. }
    assert (B : skipn (n - 1) xp = [nth (n - 1) xp 0]).
    { rewrite <- (firstn_skipn (n - 1) xp) at 2. rewrite app_nth2; rewrite firstn_length; [|lia].
      replace (n - 1 - Nat.min (n - 1) (List.length xp))%nat with 0%nat by (fold n; lia).
      assert (L : List.length (skipn (n - 1) xp) = 1%nat) by (rewrite skipn_length; fold n; lia).
      destruct (skipn (n - 1) xp) as [|y [|]]; try discriminate L. reflexivity. }
    rewrite B. cbn [filter]. rewrite E1. cbn [List.length]. lia. }
  assert (N2 : (2 <= n)%nat).
  { destruct (Nat.eq_dec n 1) as [E|]; [exfalso|lia]. rewrite E in E1. change (1 - 1)%nat with 0%nat in E1.
    apply Rltb_false in E0. apply Rleb_false in E1. lra. }
  rewrite !HP by lia. unfold Rdiv. ring.
Qed.
Lemma orography_lin a b c lon lat f h p g mf mh : shaped (List.length lat) (List.length lon) p ->
  (forall i j, (i < List.length lat)%nat -> (j < List.length lon)%nat -> mget p i j = a * mget f i j + b * mget h i j + c) ->
  orography (RField lon lat f) g = Ok mf -> orography (RField lon lat h) g = Ok mh ->
  exists mp, orography (RField lon lat p) g = Ok mp /\ shaped (g_nlat g) (g_nlon g) mp
  /\ forall i j, (i < g_nlat g)%nat -> (j < g_nlon g)%nat -> mget mp i j = a * mget mf i j + b * mget mh i j + c.
Proof.
  intros SP HP EF EH. cbn [orography] in *.
  destruct (interp_orography_value _ _ _ _ _ EF) as [L1 [L2 [SF [_ VF]]]]. destruct (interp_orography_value _ _ _ _ _ EH) as [_ [_ [SH [_ VH]]]].
  destruct (interp_orography_ok lon lat p g L1 L2 SP) as [mp EP]. destruct (interp_orography_value _ _ _ _ _ EP) as [_ [_ [_ [SM VP]]]].
  exists mp. split; [exact EP|]. split; [exact SM|]. intros i j Hi Hj. rewrite VP, VF, VH by auto.
  apply np_interp_lin; rewrite ?tab_length; auto. intros q Hq. rewrite !tab_nth by exact Hq.
  destruct SP as [LP _], SF as [LF _], SH as [LH _].
  apply np_interp_lin; rewrite ?map_length; auto; try (unfold mcol; rewrite map_length; congruence).
  intros t Ht. rewrite !mcol_nth by congruence. now apply HP.
Qed.
Section Lin.
Context {K : numtype} (T : sphfam) (g : grid).
Hypothesis H : exact_on T g.
Local Notation nr := (g_nlat g).
Local Notation nc := (g_nlon g).
Lemma gradient_lin a b f h : shaped nr nc f -> shaped nr nc h ->
  fst (gradient T g (madd (mscale a f) (mscale b h))) = madd (mscale a (fst (gradient T g f))) (mscale b (fst (gradient T g h)))
  /\ snd (gradient T g (madd (mscale a f) (mscale b h))) = madd (mscale a (snd (gradient T g f))) (mscale b (snd (gradient T g h))).
Proof.
  intros SF SH. unfold gradient, to_spectral. rewrite (et_analysis_linear _ _ _ _ H) by assumption.
  apply (et_grad_linear _ _ _ _ H); apply (et_len _ _ _ _ H).
Qed.
Lemma gradient_offset f c p : shaped nr nc f -> shaped nr nc p -> (forall i j, (i < nr)%nat -> (j < nc)%nat -> mget p i j = mget f i j + c) ->
  gradient T g p = gradient T g f.
Proof.
  intros SF SP E.
  assert (EP : p = madd (mscale 1 f) (mscale 1 (mat_of nr nc (fun _ _ => c)))).
  { apply (mat_ext nr nc); auto using shaped_madd, shaped_mscale, shaped_mat_of. intros i j Hi Hj.
    rewrite (mget_madd nr nc), !(mget_mscale nr nc), mget_mat_of by auto using shaped_mscale, shaped_mat_of. rewrite E by auto. ring. }
  rewrite EP. destruct (gradient_lin 1 1 f (mat_of nr nc (fun _ _ => c)) SF (shaped_mat_of _ _ _)) as [A B].
  rewrite (flat_gradient T g H) in A, B. cbn [fst snd] in A, B.
  pose proof (et_grad_shape _ _ _ _ H (to_spectral T g f)) as [S1 S2].
  rewrite (surjective_pairing (gradient T g _)), A, B, (surjective_pairing (gradient T g f)).
  f_equal; cbn [fst snd]; (apply (mat_ext nr nc); [auto using shaped_madd, shaped_mscale, shaped_mat_of|assumption|]); intros i j Hi Hj;
    rewrite (mget_madd nr nc), !(mget_mscale nr nc), mget_mat_of by auto using shaped_mscale, shaped_mat_of; ring.
Qed.
Lemma call_lin o r1 r2 r a b c h1 h2 h (s : state K) : s_grid s = g -> o_scale_height o <> 0 ->
  orography r1 g = Ok h1 -> orography r2 g = Ok h2 -> orography r g = Ok h ->
  (forall i j, (i < nr)%nat -> (j < nc)%nat -> mget h i j = a * mget h1 i j + b * mget h2 i j + c) ->
  exists F1 F2, call T (POrog (with_relief o r1)) s = Ok (FMat F1) /\ call T (POrog (with_relief o r2)) s = Ok (FMat F2)
  /\ shaped nr nc F1 /\ shaped nr nc F2
  /\ call T (POrog (with_relief o r)) s = Ok (FMat (madd (mscale a F1) (mscale b F2))).
Proof.
  intros E HH E1 E2 E3 HL. pose proof (orography_shaped _ _ _ E1) as S1. pose proof (orography_shaped _ _ _ E2) as S2. pose proof (orography_shaped _ _ _ E3) as S3.
  destruct (orog_call_get T g H (with_relief o r1) s h1 E HH E1) as [F1 [C1 [T1 V1]]].
  destruct (orog_call_get T g H (with_relief o r2) s h2 E HH E2) as [F2 [C2 [T2 V2]]].
  destruct (orog_call_get T g H (with_relief o r) s h E HH E3) as [F [C3 [T3 V3]]].
  exists F1, F2. cbn [call]. do 4 (split; [assumption|]). rewrite C3. do 2 f_equal.
  apply (mat_ext nr nc); auto using shaped_madd, shaped_mscale. intros i j Hi Hj.
  rewrite (mget_madd nr nc), !(mget_mscale nr nc) by auto using shaped_mscale. rewrite V1, V2, V3 by auto.
  destruct (gradient_lin a b h1 h2 S1 S2) as [A B].
  rewrite (gradient_offset (madd (mscale a h1) (mscale b h2)) c h) by
    (auto using shaped_madd, shaped_mscale; intros i' j' Hi' Hj'; rewrite (mget_madd nr nc), !(mget_mscale nr nc) by auto using shaped_mscale; now apply HL).
  rewrite A, B.
  pose proof (et_grad_shape _ _ _ _ H (to_spectral T g h1)) as [G1 G2]. pose proof (et_grad_shape _ _ _ _ H (to_spectral T g h2)) as [G3 G4].
  fold (gradient T g h1) in G1, G2. fold (gradient T g h2) in G3, G4.
  rewrite !(mget_madd nr nc), !(mget_mscale nr nc) by auto using shaped_mscale.
  unfold forcing_f, forcing_u, forcing_v, with_relief. cbn [o_relief o_scale_height o_wind o_fact o_fcor_ref]. unfold Rdiv. ring.
Qed.
End Lin.
