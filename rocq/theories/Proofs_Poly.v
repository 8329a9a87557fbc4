(** Polynomials as functions: degree, derivatives, zeros. *)
From Coq Require Import Reals List Lia Lra.
From Coquelicot Require Import Coquelicot.
Import ListNotations.
Open Scope R_scope.

Fixpoint peval (l : list R) (x : R) : R := match l with [] => 0 | a :: l' => a + x * peval l' x end.
(** a polynomial of degree at most d *)
Definition polyf (d : nat) (f : R -> R) : Prop := exists l, (length l <= S d)%nat /\ forall x, f x = peval l x.

Lemma poly_ext d f g : polyf d f -> (forall x, g x = f x) -> polyf d g.
Proof. intros [l [L E]] H. exists l. split; [exact L|]. intros x. now rewrite H. Qed.
Lemma poly_weaken d e f : (d <= e)%nat -> polyf d f -> polyf e f.
Proof. intros H [l [L E]]. exists l. split; [lia|exact E]. Qed.
Lemma poly_const c : polyf 0 (fun _ => c).
Proof. exists [c]. split; [cbn; lia|]. intros x. cbn. ring. Qed.
Lemma poly_id : polyf 1 (fun x => x).
Proof. exists [0; 1]. split; [cbn; lia|]. intros x. cbn. ring. Qed.
Lemma poly_scal d c f : polyf d f -> polyf d (fun x => c * f x).
Proof.
  intros [l [L E]]. exists (map (Rmult c) l). split; [now rewrite map_length|]. intros x. rewrite E. clear. induction l; cbn; [ring|]. rewrite <- IHl. ring.
Qed.
Fixpoint padd (l m : list R) : list R := match l, m with [], _ => m | _, [] => l | a :: l', b :: m' => (a + b) :: padd l' m' end.
Lemma padd_length l : forall m, length (padd l m) = Nat.max (length l) (length m).
Proof. induction l; destruct m; cbn; auto. Qed.
Lemma padd_eval l : forall m x, peval (padd l m) x = peval l x + peval m x.
Proof. induction l; destruct m; intros x; cbn; try ring. rewrite IHl. ring. Qed.
Lemma poly_plus d f g : polyf d f -> polyf d g -> polyf d (fun x => f x + g x).
Proof.
  intros [l [L E]] [m [M F]]. exists (padd l m). split; [rewrite padd_length; lia|]. intros x. now rewrite padd_eval, E, F.
Qed.
Lemma poly_minus d f g : polyf d f -> polyf d g -> polyf d (fun x => f x - g x).
Proof. intros F G. apply (poly_ext d (fun x => f x + (-1) * g x)); [apply poly_plus; [exact F|now apply poly_scal]|]. intros x. ring. Qed.
Lemma poly_shift d f : polyf d f -> polyf (S d) (fun x => x * f x).
Proof. intros [l [L E]]. exists (0 :: l). split; [cbn; lia|]. intros x. rewrite E. cbn. ring. Qed.
Lemma poly_mult d e f g : polyf d f -> polyf e g -> polyf (d + e) (fun x => f x * g x).
Proof.
  intros [l [L E]] G. apply (poly_ext _ (fun x => peval l x * g x)); [|intros x; now rewrite E]. clear f E.
  revert d L. induction l as [|a l IH]; intros d L.
  - apply (poly_ext _ (fun _ => 0)); [apply (poly_weaken 0); [lia|apply poly_const]|]. intros x. cbn. ring.
  - apply (poly_ext _ (fun x => a * g x + x * (peval l x * g x))); [|intros x; cbn; ring]. apply poly_plus; [apply (poly_weaken e); [lia|now apply poly_scal]|].
    destruct d as [|d].
    + destruct l; [|cbn in L; lia]. apply (poly_ext _ (fun _ => 0)); [apply (poly_weaken 0); [lia|apply poly_const]|]. intros x. cbn. ring.
    + apply poly_shift. apply IH. cbn in L. lia.
Qed.
Lemma poly_pow d f n : polyf d f -> polyf (n * d) (fun x => f x ^ n).
Proof.
  intros F. induction n; [apply (poly_ext _ (fun _ => 1)); [apply poly_const|reflexivity]|].
  change (S n * d)%nat with (d + n * d)%nat. apply (poly_mult d (n * d) f (fun x => f x ^ n)); assumption.
Qed.
Lemma poly_comp_opp d f : polyf d f -> polyf d (fun x => f (- x)).
Proof.
  intros [l [L E]]. apply (poly_ext _ (fun x => peval l (- x))); [|intros x; apply E]. clear f E. revert d L.
  induction l as [|a l IH]; intros d L.
  - cbn. apply (poly_weaken 0); [lia|]. apply (poly_const 0).
  - cbn. destruct d as [|d].
    + destruct l; [|cbn in L; lia]. apply (poly_ext _ (fun _ => a)); [apply poly_const|]. intros x. cbn. ring.
    + apply (poly_ext _ (fun x => a + (-1) * (x * peval l (- x)))); [|intros x; ring]. apply poly_plus; [apply (poly_weaken 0); [lia|apply poly_const]|].
      apply poly_scal, poly_shift, IH. cbn in L. lia.
Qed.
Lemma poly_sum d n (F : nat -> R -> R) : (forall i, (i < n)%nat -> polyf d (F i)) -> polyf d (fun x => fold_right Rplus 0 (map (fun i => F i x) (seq 0 n))).
Proof.
  intros H. assert (G : forall l, (forall i, In i l -> polyf d (F i)) -> polyf d (fun x => fold_right Rplus 0 (map (fun i => F i x) l))).
  { induction l as [|a l IH]; intros Hl; cbn; [apply (poly_weaken 0); [lia|apply (poly_const 0)]|]. apply poly_plus; [apply Hl; now left|]. apply IH. intros i Hi. apply Hl. now right. }
  apply G. intros i Hi. apply in_seq in Hi. apply H. lia.
Qed.

(** derivatives *)
Lemma poly_derivable d f : polyf d f -> exists g, polyf (d - 1) g /\ (d = 0%nat -> forall x, g x = 0) /\ forall x, is_derive f x (g x).
Proof.
  intros [l [L E]].
  assert (G : exists g, polyf (d - 1) g /\ (d = 0%nat -> forall x, g x = 0) /\ forall x, is_derive (peval l) x (g x)).
  { clear f E. revert d L. induction l as [|a l IH]; intros d L.
    - exists (fun _ => 0). split; [apply (poly_weaken 0); [lia|apply poly_const]|]. split; [reflexivity|]. intros x. cbn. apply (is_derive_const 0).
    - destruct d as [|d].
      + destruct l; [|cbn in L; lia]. exists (fun _ => 0). split; [apply poly_const|]. split; [reflexivity|]. intros x.
        apply (is_derive_ext (fun _ => a)); [intros t; cbn; ring|]. apply (is_derive_const a).
      + destruct (IH d) as [g [Pg [Z D]]]; [cbn in L; lia|]. exists (fun x => peval l x + x * g x). split; [|split; [discriminate|]].
        * replace (S d - 1)%nat with d by lia. apply poly_plus; [exists l; split; [cbn in L; lia|reflexivity]|].
          destruct d as [|d]; [apply (poly_ext _ (fun _ => 0)); [apply poly_const|intros x; rewrite Z by reflexivity; ring]|].
          apply (poly_weaken (S (S d - 1))); [lia|]. now apply poly_shift.
        * intros x. cbn. auto_derive; [exists (g x); apply D|]. pose proof (is_derive_unique _ x (g x) (D x)) as U. change (fun x0 : R => peval l x0) with (peval l). change (Derive (peval l) x = g x) in U. rewrite U. ring. }
  destruct G as [g [Pg [Z D]]]. exists g. split; [exact Pg|]. split; [exact Z|]. intros x. apply (is_derive_ext (peval l)); [intros t; now rewrite E|apply D].
Qed.
Lemma poly_is_derive d f x : polyf d f -> is_derive f x (Derive f x).
Proof. intros P. destruct (poly_derivable d f P) as [g [_ [_ D]]]. rewrite (is_derive_unique f x (g x) (D x)). apply D. Qed.
Lemma poly_ex_derive d f x : polyf d f -> ex_derive f x.
Proof. intros P. eexists. now apply (poly_is_derive d). Qed.
Lemma poly_Derive d f : polyf d f -> polyf (d - 1) (Derive f).
Proof. intros P. destruct (poly_derivable d f P) as [g [Pg [_ D]]]. apply (poly_ext _ g); [exact Pg|]. intros x. apply is_derive_unique, D. Qed.
Lemma poly_Derive_0 f x : polyf 0 f -> Derive f x = 0.
Proof. intros P. destruct (poly_derivable 0 f P) as [g [_ [Z D]]]. rewrite (is_derive_unique f x (g x) (D x)). now apply Z. Qed.
Lemma poly_Derive_n d f n : polyf d f -> polyf (d - n) (Derive_n f n).
Proof.
  intros P. induction n as [|n IH]; [now rewrite Nat.sub_0_r|]. cbn [Derive_n]. replace (d - S n)%nat with (d - n - 1)%nat by lia. now apply poly_Derive.
Qed.
Lemma poly_step d f n x : polyf d f -> is_derive (Derive_n f n) x (Derive_n f (S n) x).
Proof. intros P. apply (poly_is_derive (d - n)). now apply poly_Derive_n. Qed.
Lemma poly_smooth d f n x : polyf d f -> ex_derive_n f n x.
Proof. intros P. destruct n; [exact I|]. cbn. apply (poly_ex_derive (d - n)). now apply poly_Derive_n. Qed.
Lemma poly_Derive_n_high d f n x : polyf d f -> (d < n)%nat -> Derive_n f n x = 0.
Proof.
  intros P H. destruct n as [|n]; [lia|]. cbn [Derive_n]. apply poly_Derive_0. replace 0%nat with (d - n)%nat by lia. now apply poly_Derive_n.
Qed.
Lemma poly_continuous d f x : polyf d f -> continuous f x.
Proof. intros P. apply (ex_derive_continuous f x). now apply (poly_ex_derive d). Qed.
Lemma poly_ex_RInt d f a b : polyf d f -> ex_RInt f a b.
Proof. intros P. apply (ex_RInt_continuous f a b). intros z _. now apply (poly_continuous d). Qed.

(** a polynomial of degree at most d with more than d zeros *)
Lemma factor l a : exists q, (length q = length l - 1)%nat /\ forall x, peval l x = (x - a) * peval q x + peval l a.
Proof.
  induction l as [|b l [q [L E]]]; [exists []; split; [reflexivity|]; intros x; cbn; ring|].
  destruct l as [|c l]; [exists []; split; [reflexivity|]; intros x; cbn; ring|].
  exists (peval (c :: l) a :: q). split; [cbn in *; lia|]. intros x. cbn [peval] in *. rewrite (E x). ring.
Qed.
Lemma roots_zero xs : forall l, NoDup xs -> (length l <= length xs)%nat -> (forall y, In y xs -> peval l y = 0) -> forall x, peval l x = 0.
Proof.
  induction xs as [|a xs IH]; intros l N L Z x; [destruct l; [reflexivity|cbn in L; lia]|].
  destruct (factor l a) as [q [Lq E]]. inversion N as [|? ? Na N']; subst. rewrite E, (Z a) by now left. rewrite (IH q); [ring|exact N'|cbn in L; lia|].
  intros y Hy. specialize (E y). rewrite (Z y (or_intror Hy)), (Z a (or_introl eq_refl)) in E.
  assert (y - a <> 0) by (intros C; apply Na; replace a with y by lra; exact Hy). nra.
Qed.
Lemma poly_zero d f xs : polyf d f -> NoDup xs -> (d < length xs)%nat -> (forall y, In y xs -> f y = 0) -> forall x, f x = 0.
Proof.
  intros [l [L E]] N H Z x. rewrite E. apply (roots_zero xs); [exact N|lia|]. intros y Hy. rewrite <- E. now apply Z.
Qed.

(** integrals *)
Lemma poly_RInt_derive d f a b : polyf d f -> RInt (Derive f) a b = f b - f a.
Proof.
  intros P. apply is_RInt_unique. apply (is_RInt_derive f (Derive f)); intros x _; [now apply (poly_is_derive d)|]. apply (poly_continuous (d - 1)). now apply poly_Derive.
Qed.
Lemma square_integral_pos a b f : a < b -> (forall x, continuous f x) -> (forall x, a <= x <= b -> 0 <= f x) -> (exists x, a < x < b /\ 0 < f x) -> 0 < RInt f a b.
Proof.
  intros Hab C P [x0 [Hx F0]].
  assert (I : forall u v, ex_RInt f u v) by (intros u v; apply (ex_RInt_continuous f); intros z _; apply C).
  assert (N : exists e, 0 < e /\ a < x0 - e /\ x0 + e < b /\ forall x, x0 - e <= x <= x0 + e -> 0 < f x).
  { destruct (proj1 (filterlim_locally f (f x0)) (C x0) (mkposreal _ F0)) as [d D].
    set (e := Rmin (d / 2) (Rmin ((x0 - a) / 2) ((b - x0) / 2))).
    assert (0 < e) by (unfold e; pose proof (cond_pos d); repeat apply Rmin_glb_lt; lra).
    assert (e <= d / 2 /\ e <= (x0 - a) / 2 /\ e <= (b - x0) / 2) as [A1 [A2 A3]].
    { unfold e. split; [apply Rmin_l|]. split; (eapply Rle_trans; [apply Rmin_r|]); [apply Rmin_l|apply Rmin_r]. }
    exists e. repeat split; try lra. intros x X. specialize (D x).
    assert (B : ball x0 d x). { change (Rabs (x - x0) < d). pose proof (cond_pos d). apply Rabs_def1; lra. }
    specialize (D B). change (Rabs (f x - f x0) < f x0) in D. apply Rabs_def2 in D. lra. }
  destruct N as [e [E0 [E1 [E2 E3]]]].
  rewrite <- (RInt_Chasles f a (x0 - e) b) by apply I. rewrite <- (RInt_Chasles f (x0 - e) (x0 + e) b) by apply I.
  assert (0 <= RInt f a (x0 - e)) by (apply RInt_ge_0; [lra|apply I|intros x X; apply P; lra]).
  assert (0 <= RInt f (x0 + e) b) by (apply RInt_ge_0; [lra|apply I|intros x X; apply P; lra]).
  assert (0 < RInt f (x0 - e) (x0 + e)) by (apply RInt_gt_0; [lra|intros x X; apply E3; lra|intros x X; apply C]).
  change (0 < RInt f a (x0 - e) + (RInt f (x0 - e) (x0 + e) + RInt f (x0 + e) b)). lra.
Qed.
