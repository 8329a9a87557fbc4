(** Formatting (C78, C79). *)
From Coq Require Export String.
From Verif Require Import Base Model_Format Proofs_Base.
From Coq Require Import Decimal DecimalZ DecimalFacts.
From Coq Require Import List Lia Lra.
Open Scope R_scope.

Definition seconds_per (u : time_unit) : R :=
  match u with Us => 1 | Umin => 60 | Uh => 3600 | Ud => 86400 end.

Lemma round_even_close x : Rabs (IZR (round_even x) - x) <= 1 / 2.
Proof.
  unfold round_even. pose proof (base_Int_part x) as [H1 H2]. set (f := Int_part x) in *.
  destruct (Rltb (x - IZR f) (1 / 2)) eqn:A; [apply Rltb_true in A|apply Rltb_false in A].
  - apply Rabs_le. lra.
  - destruct (Rltb (1 / 2) (x - IZR f)) eqn:B; [apply Rltb_true in B|apply Rltb_false in B].
    + rewrite plus_IZR. apply Rabs_le. lra.
    + destruct (Z.even f); [|rewrite plus_IZR]; apply Rabs_le; lra.
Qed.
Lemma scale_same x : let '(y, u) := scale_time x in y * seconds_per u = x.
Proof.
  unfold scale_time. destruct (Rltb 120 x) eqn:A.
  - destruct (Rltb 120 (x / 60)) eqn:B.
    + destruct (Rltb 240 (x / 60 / 60)); cbn [seconds_per]; field.
    + destruct (Rltb 240 (x / 60)) eqn:C; cbn [seconds_per]; [|field].
      apply Rltb_true in C. apply Rltb_false in B. lra.
  - rewrite A. destruct (Rltb 240 x) eqn:C; cbn [seconds_per]; [|field].
    apply Rltb_true in C. apply Rltb_false in A. lra.
Qed.
Lemma scale_unit x : let '(y, u) := scale_time x in
  u = (if Rle_dec x 120 then Us else if Rle_dec x 7200 then Umin else if Rle_dec x 864000 then Uh else Ud).
Proof.
  unfold scale_time. destruct (Rltb 120 x) eqn:A; rewrite ?Rltb_true, ?Rltb_false in A.
  - destruct (Rltb 120 (x / 60)) eqn:B; rewrite ?Rltb_true, ?Rltb_false in B.
    + destruct (Rltb 240 (x / 60 / 60)) eqn:C; rewrite ?Rltb_true, ?Rltb_false in C;
        repeat destruct (Rle_dec _ _); try reflexivity; lra.
    + destruct (Rltb 240 (x / 60)) eqn:C; rewrite ?Rltb_true, ?Rltb_false in C;
        repeat destruct (Rle_dec _ _); try reflexivity; lra.
  - destruct (Rltb 120 x) eqn:B; rewrite ?Rltb_true, ?Rltb_false in B; try lra.
    destruct (Rltb 240 x) eqn:C; rewrite ?Rltb_true, ?Rltb_false in C; try lra.
    destruct (Rle_dec x 120); [reflexivity|lra].
Qed.

(** C78: the text is the time in its unit, to the nearest tenth *)
Theorem C78_same_instant : forall x tenths u, format_time (TNumber x) = Ok (TimeText tenths u) ->
  Rabs (IZR tenths / 10 * seconds_per u - x) <= seconds_per u / 20
  /\ (x = IZR tenths / 10 * seconds_per u <-> exists k : Z, x = IZR k / 10 * seconds_per u).
Proof.
  intros x tenths u H. unfold format_time in H. pose proof (scale_same x) as S. destruct (scale_time x) as [y v].
  injection H as <- <-. assert (P : 0 < seconds_per v) by (destruct v; cbn; lra).
  pose proof (round_even_close (10 * y)) as Q. split.
  - rewrite <- S. replace (IZR (round_even (10 * y)) / 10 * seconds_per v - y * seconds_per v) with ((IZR (round_even (10 * y)) - 10 * y) * (seconds_per v / 10)) by field.
    rewrite Rabs_mult, (Rabs_pos_eq (seconds_per v / 10)) by lra.
    replace (seconds_per v / 20) with (1 / 2 * (seconds_per v / 10)) by field. apply Rmult_le_compat_r; lra.
  - split; [intros ->; eauto|]. intros [k Hk]. rewrite <- S in Hk. apply Rmult_eq_reg_r in Hk; [|lra].
    assert (E : 10 * y = IZR k) by (rewrite Hk; field). rewrite E in Q |- *.
    assert (E' : round_even (IZR k) = k).
    { rewrite <- minus_IZR, <- abs_IZR in Q. assert (Z.abs (round_even (IZR k) - k) < 1)%Z by (apply lt_IZR; lra). lia. }
    rewrite E'. rewrite <- S, Hk. reflexivity.
Qed.
Print Assumptions C78_same_instant.

Theorem C78_unit : forall x tenths u, format_time (TNumber x) = Ok (TimeText tenths u) ->
  (x <= 120 -> u = Us) /\ (120 < x <= 120 * 60 -> u = Umin)
  /\ (120 * 60 < x <= 240 * 3600 -> u = Uh) /\ (240 * 3600 < x -> u = Ud).
Proof.
  intros x tenths u H. unfold format_time in H. pose proof (scale_unit x) as S. destruct (scale_time x) as [y v].
  injection H as _ <-. subst v. repeat split; intros; repeat destruct (Rle_dec _ _); try reflexivity; lra.
Qed.
Print Assumptions C78_unit.

Theorem C78_displayed_partial : forall t, (exists x, t = TNumber x) \/ (exists iso, t = TDatetime iso) ->
  exists s, state_repr t = Ok s.
Proof.
  intros t [[x ->]|[iso ->]]; unfold state_repr, format_time; [|eauto]. destruct (scale_time x). eauto.
Qed.
Print Assumptions C78_displayed_partial.

(** states read from a dataset with a numeric time coordinate cannot be displayed *)
Theorem C78_dataset_time_refuted : forall x, state_repr (TArray0 x) = Err AttributeError.
Proof. reflexivity. Qed.
Print Assumptions C78_dataset_time_refuted.

Example C78_example : format_time (TNumber 5400) = Ok (TimeText 900 Umin).
Proof.
  unfold format_time. pose proof (scale_same 5400) as S. pose proof (scale_unit 5400) as U. destruct (scale_time 5400) as [y u].
  destruct (Rle_dec 5400 120); [lra|]. destruct (Rle_dec 5400 7200); [|lra]. subst u. cbn [seconds_per] in S.
  assert (y = 90) as -> by lra. do 2 f_equal. pose proof (round_even_close (10 * 90)) as Q.
  replace (10 * 90) with (IZR 900) in * by lra. rewrite <- minus_IZR, <- abs_IZR in Q.
  assert (Z.abs (round_even (IZR 900) - 900) < 1)%Z by (apply lt_IZR; lra). lia.
Qed.

(** C79 *)
Lemma uint_text_inj a b : uint_text a = uint_text b -> a = b.
Proof.
  revert b. induction a; intros b H; destruct b; cbn in H; try discriminate; try reflexivity; injection H as H; f_equal; now apply IHa.
Qed.
Lemma uint_text_chars d c : In c (uint_text d) -> (48 <= c <= 57)%Z.
Proof. induction d; cbn; intros H; [destruct H| ..]; destruct H as [<-|H]; try lia; auto. Qed.
Definition int_char (c : Z) : Prop := (48 <= c <= 57)%Z \/ c = 45%Z.
Lemma int_text_chars n c : In c (int_text n) -> int_char c.
Proof.
  unfold int_text, int_char. destruct (Z.to_int n); intros H; [left; eapply uint_text_chars, H|].
  destruct H as [<-|H]; [now right|left; eapply uint_text_chars, H].
Qed.
Lemma int_text_inj a b : int_text a = int_text b -> a = b.
Proof.
  intros H. apply DecimalZ.to_int_inj. unfold int_text in H.
  destruct (Z.to_int a) as [x|x], (Z.to_int b) as [y|y].
  - f_equal. now apply uint_text_inj.
  - pose proof (uint_text_chars x 45). rewrite H in H0. specialize (H0 (or_introl eq_refl)). lia.
  - pose proof (uint_text_chars y 45). rewrite <- H in H0. specialize (H0 (or_introl eq_refl)). lia.
  - f_equal. injection H as H. now apply uint_text_inj.
Qed.
Lemma map_inj_on (P : Z -> Prop) (f : Z -> Z) (a b : text) : (forall x y, P x -> P y -> f x = f y -> x = y) ->
  (forall c, In c a -> P c) -> (forall c, In c b -> P c) -> map f a = map f b -> a = b.
Proof.
  intros I. revert b. induction a as [|x a IH]; intros [|y b] Pa Pb H; cbn in H; try discriminate; [reflexivity|].
  injection H as H1 H2. f_equal; [apply I; auto; [apply Pa|apply Pb]; now left|].
  apply IH; [intros; apply Pa; now right|intros; apply Pb; now right|exact H2].
Qed.
Ltac cases_ifs := repeat match goal with
  | |- context [if (?a <=? ?b)%Z && (?c <=? ?d)%Z then _ else _] => destruct (Z.leb_spec a b); destruct (Z.leb_spec c d); cbn [andb]
  | |- context [if (?a =? ?b)%Z then _ else _] => destruct (Z.eqb_spec a b)
  | |- context [if andb true true then _ else _] => cbn [andb]
  end.
Lemma sub_char_inj x y : int_char x -> int_char y -> sub_char x = sub_char y -> x = y.
Proof. unfold int_char, sub_char. intros Hx Hy. cases_ifs; lia. Qed.
Lemma sup_char_inj x y : int_char x -> int_char y -> sup_char x = sup_char y -> x = y.
Proof. unfold int_char, sup_char. intros Hx Hy. cases_ifs; lia. Qed.

Theorem C79_faithful : (forall n, length (sub n) = length (int_text n) /\ length (sup n) = length (int_text n))
  /\ (forall a b, sub a = sub b -> a = b) /\ (forall a b, sup a = sup b -> a = b).
Proof.
  split; [intros n; unfold sub, sup; now rewrite !map_length|]. split; intros a b H; apply int_text_inj.
  - apply (map_inj_on int_char sub_char); [exact sub_char_inj|apply int_text_chars|apply int_text_chars|exact H].
  - apply (map_inj_on int_char sup_char); [exact sup_char_inj|apply int_text_chars|apply int_text_chars|exact H].
Qed.
Print Assumptions C79_faithful.

(** the digits and the sign become the Unicode sub- and superscripts *)
Theorem C79_characters : forall n,
  Forall2 (fun c s => In (c, s) (combine [48; 49; 50; 51; 52; 53; 54; 55; 56; 57; 45]%Z [8320; 8321; 8322; 8323; 8324; 8325; 8326; 8327; 8328; 8329; 8331]%Z)) (int_text n) (sub n)
  /\ Forall2 (fun c s => In (c, s) (combine [48; 49; 50; 51; 52; 53; 54; 55; 56; 57; 45]%Z [8304; 185; 178; 179; 8308; 8309; 8310; 8311; 8312; 8313; 8315]%Z)) (int_text n) (sup n).
Proof.
  intros n. unfold sub, sup. assert (F : Forall int_char (int_text n)) by (apply Forall_forall; apply int_text_chars).
  split; induction F as [|c l Hc F IH]; cbn [map]; constructor; try exact IH; clear IH F.
  all: assert (E : In c [48; 49; 50; 51; 52; 53; 54; 55; 56; 57; 45]%Z) by (destruct Hc as [Hc| ->]; cbn; lia).
  all: cbn in E; destruct E as [<-|[<-|[<-|[<-|[<-|[<-|[<-|[<-|[<-|[<-|[<-|[]]]]]]]]]]]]; cbn; tauto.
Qed.
Print Assumptions C79_characters.

Example C79_example : sup (-12) = [8315; 185; 178]%Z /\ sub 70 = [8327; 8320]%Z.
Proof. split; reflexivity. Qed.
