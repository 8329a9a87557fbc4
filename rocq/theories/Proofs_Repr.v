(** Lemmas about textual representations. *)
From Coq Require Export String.
From Verif Require Import Base Model_Grid Model_Format Model_Time Model_Spectral Model_State Model_Run Model_RHS Model_Repr Spec_Repr Proofs_Base Props_Format.
From Coq Require Import List Lia Lra.
Open Scope R_scope.

(** *** lines *)
Lemma cut_line a b x y : single_line a -> single_line b -> a ++ newline :: x = b ++ newline :: y -> a = b /\ x = y.
Proof.
  revert b. induction a as [|c a IH]; intros [|d b] Ha Hb H; cbn in H; try injection H as H1 H2.
  - injection H as ->. now split.
  - exfalso. apply Hb. left. now rewrite <- H1.
  - exfalso. apply Ha. left. now rewrite H1.
  - subst d. destruct (IH b) as [-> ->]; auto; intros I; [apply Ha|apply Hb]; now right.
Qed.
Lemma join_inj l : forall l', length l = length l' -> Forall single_line l -> Forall single_line l' -> join_lines l = join_lines l' -> l = l'.
Proof.
  induction l as [|a l IH]; intros [|b l'] L F F' H; try discriminate; [reflexivity|].
  inversion F as [|? ? Fa Fl]; inversion F' as [|? ? Fb Fl']; subst. cbn [length] in L.
  destruct l as [|a2 l], l' as [|b2 l']; try discriminate.
  - cbn in H. now rewrite H.
  - change (a ++ newline :: join_lines (a2 :: l) = b ++ newline :: join_lines (b2 :: l')) in H.
    destruct (cut_line _ _ _ _ Fa Fb H) as [-> H2]. f_equal. apply IH; auto.
Qed.
Lemma single_app a b : single_line a -> single_line b -> single_line (a ++ b).
Proof. intros Ha Hb I. apply in_app_or in I. destruct I; contradiction. Qed.
Lemma single_int n : single_line (int_text n).
Proof. intros I. apply int_text_chars in I. destruct I as [I|I]; lia. Qed.
Lemma single_sup n : single_line (sup n).
Proof.
  unfold sup. intros I. apply in_map_iff in I. destruct I as [c [E I]]. apply int_text_chars in I. revert E. unfold sup_char, int_char in *.
  repeat match goal with |- context [if ?b then _ else _] => destruct b eqn:? end; intros; lia.
Qed.
Lemma nat_text_inj a b : nat_text a = nat_text b -> a = b.
Proof. unfold nat_text. intros H. apply int_text_inj in H. lia. Qed.

(** the two numbers of "(nlat, nlon)" *)
Lemma cut_digits a b x y : ~ In 44%Z a -> ~ In 44%Z b -> a ++ 44%Z :: x = b ++ 44%Z :: y -> a = b /\ x = y.
Proof.
  revert b. induction a as [|c a IH]; intros [|d b] Ha Hb H; cbn in H; try injection H as H1 H2.
  - injection H as ->. now split.
  - exfalso. apply Hb. left. now rewrite <- H1.
  - exfalso. apply Ha. left. now rewrite H1.
  - subst d. destruct (IH b) as [-> ->]; auto; intros I; [apply Ha|apply Hb]; now right.
Qed.
Lemma no_comma n : ~ In 44%Z (nat_text n).
Proof. unfold nat_text. intros I. apply int_text_chars in I. destruct I as [I|I]; lia. Qed.

(** *** forcing terms *)
Definition op_char (c : Z) : Prop := c = 43%Z \/ c = 42%Z.
Fixpoint clean (t : text) : Prop :=
  match t with
  | [] => True
  | c :: t => c <> 40%Z /\ c <> 41%Z /\ ~ (c = 32%Z /\ match t with d :: _ => op_char d | [] => False end) /\ clean t
  end.
Lemma plain_clean t : plain t -> clean t.
Proof.
  induction t as [|c t IH]; intros [H1 [H2 H3]]; cbn; [exact I|]. split; [intros ->; apply H1; now left|]. split; [intros ->; apply H2; now left|]. split.
  - intros [-> O]. destruct t as [|d t]; [exact O|]. destruct (H3 [] t) as [A B]. destruct O as [-> | ->]; [now apply A|now apply B].
  - apply IH. split; [intros I; apply H1; now right|]. split; [intros I; apply H2; now right|]. intros a b. destruct (H3 (c :: a) b) as [A B].
    split; intros ->; [now apply A|now apply B].
Qed.
Fixpoint cleanb (t : text) : bool :=
  match t with
  | [] => true
  | c :: t => negb (Z.eqb c 40) && negb (Z.eqb c 41) && negb (Z.eqb c 32 && match t with d :: _ => Z.eqb d 43 || Z.eqb d 42 | [] => false end) && cleanb t
  end.
Lemma cleanb_plain t : cleanb t = true -> plain t.
Proof.
  induction t as [|c t IH]; intros H.
  - split; [intros []|]. split; [intros []|]. intros [|x a] b; split; discriminate.
  - cbn in H. apply andb_prop in H. destruct H as [H Ht]. apply andb_prop in H. destruct H as [H Hp]. apply andb_prop in H. destruct H as [H0 H1].
    destruct (IH Ht) as [P1 [P2 P3]]. apply Bool.negb_true_iff in H0, H1, Hp. apply Z.eqb_neq in H0, H1.
    split; [intros [E|I]; [now apply H0|contradiction]|]. split; [intros [E|I]; [now apply H1|contradiction]|]. intros [|x a] b.
    + split; intros E; injection E as -> ->; discriminate Hp.
    + destruct (P3 a b) as [Q1 Q2]. split; intros E; injection E as _ E; contradiction.
Qed.
(** what can follow a term *)
Definition stops (r : text) : Prop :=
  match r with
  | [] => True
  | c :: r => c = 41%Z \/ (c = 32%Z /\ match r with d :: _ => op_char d | [] => False end)
  end.
Lemma cut_term : forall t t' r r', clean t -> clean t' -> stops r -> stops r' -> t ++ r = t' ++ r' -> t = t' /\ r = r'.
Proof.
  assert (N : forall c t r r', clean (c :: t) -> stops r -> stops r' -> r = (c :: t) ++ r' -> False).
  { intros c t r r' [H1 [H2 [H3 H4]]] S S' E. subst r. cbn in S. destruct S as [-> |[-> S]]; [now apply H2|].
    destruct t as [|d t]; cbn in S.
    - destruct r' as [|d r']; [exact S|]. cbn in S'. unfold op_char in S. destruct S' as [-> |[-> _]]; lia.
    - apply H3. now split. }
  induction t as [|c t IH]; intros [|d t'] r r' C C' S S' E.
  - now split.
  - exfalso. now apply (N d t' r r').
  - exfalso. now apply (N c t r' r).
  - cbn in E. injection E as -> E. destruct C as [_ [_ [_ C]]], C' as [_ [_ [_ C']]].
    destruct (IH t' r r' C C' S S' E) as [-> ->]. now split.
Qed.

Section Terms.
Context {K : numtype} (term_text : obj K -> text).
Lemma terms_repr : forall a, (forall l, In l (terms_of a) -> plain (term_text l)) ->
  forall b r r', (forall l, In l (terms_of b) -> plain (term_text l)) ->
  (forall l m, In l (terms_of a) -> In m (terms_of b) -> term_text l = term_text m -> l = m) ->
  stops r -> stops r' -> rhs_repr term_text a ++ r = rhs_repr term_text b ++ r' -> a = b /\ r = r'.
Proof.
  assert (Leaf : forall t r y, plain t -> stops r -> t ++ r <> 40%Z :: y).
  { intros [|c t] r y [H _] S E; [|injection E as -> _; apply H; now left]. cbn in E. subst r. cbn in S. lia. }
  assert (Shape : forall b, (exists b1 b2, b = PSum b1 b2) \/ (exists b1 b2, b = PProd b1 b2) \/ (rhs_repr term_text b = term_text b /\ terms_of b = [b])).
  { intros b. destruct b; cbn; eauto 6. }
  assert (Pair : forall c d a1 a2 b1 b2,
    (forall b r r', (forall l, In l (terms_of b) -> plain (term_text l)) -> (forall l m, In l (terms_of a1) -> In m (terms_of b) -> term_text l = term_text m -> l = m) ->
      stops r -> stops r' -> rhs_repr term_text a1 ++ r = rhs_repr term_text b ++ r' -> a1 = b /\ r = r') ->
    (forall b r r', (forall l, In l (terms_of b) -> plain (term_text l)) -> (forall l m, In l (terms_of a2) -> In m (terms_of b) -> term_text l = term_text m -> l = m) ->
      stops r -> stops r' -> rhs_repr term_text a2 ++ r = rhs_repr term_text b ++ r' -> a2 = b /\ r = r') ->
    op_char c -> op_char d -> forall r r', stops r -> stops r' ->
    (forall l, In l (terms_of b1 ++ terms_of b2) -> plain (term_text l)) ->
    (forall l m, In l (terms_of a1 ++ terms_of a2) -> In m (terms_of b1 ++ terms_of b2) -> term_text l = term_text m -> l = m) ->
    ([40%Z] ++ rhs_repr term_text a1 ++ [32%Z; c; 32%Z] ++ rhs_repr term_text a2 ++ [41%Z]) ++ r = ([40%Z] ++ rhs_repr term_text b1 ++ [32%Z; d; 32%Z] ++ rhs_repr term_text b2 ++ [41%Z]) ++ r' ->
    c = d /\ a1 = b1 /\ a2 = b2 /\ r = r').
  { intros c d a1 a2 b1 b2 I1 I2 Oc Od r r' S S' P Q E. rewrite <- !app_assoc in E. cbn [app] in E. injection E as E.
    assert (S1 : forall c x, op_char c -> stops (32%Z :: c :: x)) by (intros c0 x O; right; now split).
    assert (S2 : forall x, stops (41%Z :: x)) by (intros x; now left).
    apply I1 in E; [|intros l I; apply P, in_or_app; now left|intros l m I J; apply Q; apply in_or_app; now left|now apply S1|now apply S1].
    destruct E as [-> E2]. injection E2 as -> E2.
    apply I2 in E2; [|intros l I; apply P, in_or_app; now right|intros l m I J; apply Q; apply in_or_app; now right|now apply S2|now apply S2].
    destruct E2 as [-> E3].
    injection E3 as ->. auto. }
  assert (L : forall a b r r', rhs_repr term_text a = term_text a -> terms_of a = [a] -> (forall l, In l (terms_of a) -> plain (term_text l)) -> (forall l, In l (terms_of b) -> plain (term_text l)) ->
    (forall l m, In l (terms_of a) -> In m (terms_of b) -> term_text l = term_text m -> l = m) ->
    stops r -> stops r' -> rhs_repr term_text a ++ r = rhs_repr term_text b ++ r' -> a = b /\ r = r').
  { intros a b r r' Ra Ta P P' Q S S' E. rewrite Ta in *. specialize (P a (or_introl eq_refl)). rewrite Ra in E.
    destruct (Shape b) as [[b1 [b2 ->]]|[[b1 [b2 ->]]|[Rb Tb]]].
    - exfalso. cbn [rhs_repr] in E. change (txt "(") with [40%Z] in E. cbn [app] in E. now apply Leaf in E.
    - exfalso. cbn [rhs_repr] in E. change (txt "(") with [40%Z] in E. cbn [app] in E. now apply Leaf in E.
    - rewrite Tb in *. rewrite Rb in E. specialize (P' b (or_introl eq_refl)). destruct (cut_term _ _ _ _ (plain_clean _ P) (plain_clean _ P') S S' E) as [E1 E2].
      split; [|exact E2]. apply Q; [now left|now left|exact E1]. }
  assert (B : forall c a1 a2, op_char c -> forall b r r', (forall l, In l (terms_of b) -> plain (term_text l)) -> rhs_repr term_text b = term_text b -> terms_of b = [b] -> stops r' ->
    ([40%Z] ++ rhs_repr term_text a1 ++ [32%Z; c; 32%Z] ++ rhs_repr term_text a2 ++ [41%Z]) ++ r = rhs_repr term_text b ++ r' -> False).
  { intros c a1 a2 Oc b r r' P' Rb Tb S' E. rewrite Tb in P'. specialize (P' b (or_introl eq_refl)). rewrite Rb in E. cbn [app] in E. symmetry in E. now apply Leaf in E. }
  assert (Plus : forall a1 a2, rhs_repr term_text (PSum a1 a2) = [40%Z] ++ rhs_repr term_text a1 ++ [32%Z; 43%Z; 32%Z] ++ rhs_repr term_text a2 ++ [41%Z]) by reflexivity.
  assert (Times : forall a1 a2, rhs_repr term_text (PProd a1 a2) = [40%Z] ++ rhs_repr term_text a1 ++ [32%Z; 42%Z; 32%Z] ++ rhs_repr term_text a2 ++ [41%Z]) by reflexivity.
  assert (O43 : op_char 43) by now left. assert (O42 : op_char 42) by now right.
  induction a as [c|f|f|a1 I1 a2 I2|a1 I1 a2 I2|t|x p|o]; intros P b r r' P' Q S S' E; try (apply (L _ b r r'); auto; fail).
  - assert (P1 : forall l, In l (terms_of a1) -> plain (term_text l)) by (intros l I; apply P; cbn; apply in_or_app; now left).
    assert (P2 : forall l, In l (terms_of a2) -> plain (term_text l)) by (intros l I; apply P; cbn; apply in_or_app; now right).
    specialize (I1 P1). specialize (I2 P2). rewrite Plus in E. destruct (Shape b) as [[b1 [b2 ->]]|[[b1 [b2 ->]]|[Rb Tb]]].
    + rewrite Plus in E. destruct (Pair 43%Z 43%Z a1 a2 b1 b2 I1 I2 O43 O43 r r' S S' P' Q E) as [_ [-> [-> ->]]]. now split.
    + rewrite Times in E. destruct (Pair 43%Z 42%Z a1 a2 b1 b2 I1 I2 O43 O42 r r' S S' P' Q E) as [N _]. discriminate N.
    + exfalso. exact (B 43%Z a1 a2 O43 b r r' P' Rb Tb S' E).
  - assert (P1 : forall l, In l (terms_of a1) -> plain (term_text l)) by (intros l I; apply P; cbn; apply in_or_app; now left).
    assert (P2 : forall l, In l (terms_of a2) -> plain (term_text l)) by (intros l I; apply P; cbn; apply in_or_app; now right).
    specialize (I1 P1). specialize (I2 P2). rewrite Times in E. destruct (Shape b) as [[b1 [b2 ->]]|[[b1 [b2 ->]]|[Rb Tb]]].
    + rewrite Plus in E. destruct (Pair 42%Z 43%Z a1 a2 b1 b2 I1 I2 O42 O43 r r' S S' P' Q E) as [N _]. discriminate N.
    + rewrite Times in E. destruct (Pair 42%Z 42%Z a1 a2 b1 b2 I1 I2 O42 O42 r r' S S' P' Q E) as [_ [-> [-> ->]]]. now split.
    + exfalso. exact (B 42%Z a1 a2 O42 b r r' P' Rb Tb S' E).
Qed.
End Terms.
