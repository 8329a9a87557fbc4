(** Arrays of integers: proofs. *)
From Coq Require Export String.
From Verif Require Import Base Spec_Grid Spec_Quad Spec_Interp Spec_Falwa Spec_Filter Spec_Dtype Model_Grid Model_Quad Model_Dtype.
From Verif Require Import Proofs_Base Proofs_Grid Proofs_Filter Proofs_Interp Proofs_Box Proofs_Quad Proofs_Zonalize Proofs_Falwa Proofs_Profile.
From Coq Require Import List Lia Lra.
Import ListNotations.
Open Scope R_scope.

Lemma cast_int x : toward_zero x (cast DInt x).
Proof.
  unfold toward_zero, cast, py_int. destruct (Rle_dec 0 x) as [P|P].
  - pose proof (Int_part_spec x) as S. assert (0 <= IZR (Int_part x)).
    { apply IZR_le. destruct (Z_lt_le_dec (Int_part x) 0) as [N|N]; [|exact N]. exfalso.
      assert (Int_part x + 1 <= 0)%Z as Q by lia. apply IZR_le in Q. rewrite plus_IZR in Q. lra. }
    split; [now eexists|]. split; [rewrite Rabs_right by lra; lra|]. split; intros; [lra|]. assert (x = 0) as -> by lra. lra.
  - pose proof (Int_part_spec (- x)) as S. rewrite opp_IZR. assert (0 <= IZR (Int_part (- x))).
    { apply IZR_le. destruct (Z_lt_le_dec (Int_part (- x)) 0) as [N|N]; [|exact N]. exfalso.
      assert (Int_part (- x) + 1 <= 0)%Z as Q by lia. apply IZR_le in Q. rewrite plus_IZR in Q. lra. }
    split; [exists (- Int_part (- x))%Z; now rewrite opp_IZR|]. split; [rewrite Rabs_left1 by lra; lra|]. split; intros; lra.
Qed.
Lemma toward_zero_unique x a b : toward_zero x a -> toward_zero x b -> a = b.
Proof.
  intros [[m ->] [A [A1 A2]]] [[n ->] [B [B1 B2]]]. f_equal. apply Rabs_def2 in A, B.
  assert (L : IZR m < IZR n + 1 /\ IZR n < IZR m + 1).
  { destruct (Rle_or_lt 0 x) as [P|P]; [specialize (A1 P); specialize (B1 P)|specialize (A2 (Rlt_le _ _ P)); specialize (B2 (Rlt_le _ _ P))]; lra. }
  destruct L as [L1 L2]. rewrite <- plus_IZR in L1, L2. apply lt_IZR in L1, L2. lia.
Qed.
Lemma toward_zero_self x : integral x -> toward_zero x x.
Proof. intros H. split; [exact H|]. rewrite Rminus_diag_eq, Rabs_R0 by easy. lra. Qed.
Lemma cast_integral x : cast DInt x = x <-> integral x.
Proof.
  split; intros H.
  - rewrite <- H. destruct (cast_int x) as [I _]. exact I.
  - apply (toward_zero_unique x); [apply cast_int|now apply toward_zero_self].
Qed.
Lemma cast_eq x y : toward_zero x y -> cast DInt x = y.
Proof. intros H. apply (toward_zero_unique x); [apply cast_int|exact H]. Qed.
Lemma cast_small x : Rabs x < 1 -> cast DInt x = 0.
Proof.
  intros H. apply cast_eq. apply Rabs_def2 in H. split; [now exists 0%Z|]. split; [rewrite Rminus_0_r; apply Rabs_def1; lra|lra].
Qed.
Lemma arrays_cast a : arrays toward_zero a (cast_array DInt a).
Proof.
  assert (V : forall v, Forall2 toward_zero v (map (cast DInt) v)) by (induction v as [|x v IH]; constructor; [apply cast_int|exact IH]).
  destruct a as [v|m|]; cbn; [apply V| |exact I]. unfold mmap. induction m as [|r m IH]; constructor; [apply V|exact IH].
Qed.
Lemma arrays_unique a b c : arrays toward_zero a b -> arrays toward_zero a c -> b = c.
Proof.
  assert (V : forall u v w, Forall2 toward_zero u v -> Forall2 toward_zero u w -> v = w).
  { intros u v w H. revert w. induction H as [|x y u v Hx H IH]; intros w K; inversion K; subst; [easy|]. f_equal; [now apply (toward_zero_unique x)|now apply IH]. }
  destruct a as [u|m|], b as [v|n|], c as [w|o|]; cbn; try easy; intros H K; f_equal; [now apply (V u)|].
  revert o K. induction H as [|x y m n Hx H IH]; intros o K; inversion K; subst; [easy|]. f_equal; [now apply (V x)|now apply IH].
Qed.
Lemma bind_cast (r : res ndarray) out : (do a <- r; Ok (cast_array DInt a)) = Ok out <-> exists a, r = Ok a /\ arrays toward_zero a out.
Proof.
  destruct r as [a|e]; cbn [bind]; split.
  - intros [= <-]. exists a. split; [easy|apply arrays_cast].
  - intros [b [[= <-] H]]. f_equal. apply (arrays_unique a); [apply arrays_cast|exact H].
  - discriminate.
  - now intros [b [H _]].
Qed.
Lemma bind_err d (r : res ndarray) e : (do a <- r; Ok (cast_array d a)) = Err e <-> r = Err e.
Proof. destruct r as [a|x]; cbn [bind]; split; congruence. Qed.

(** masks *)
Lemma sum_full (w : vec) (v : nat -> R) : unit_sum w -> (forall m, (m < length w)%nat -> v m = 1) -> Rsum (tab (length w) (fun m => nth m w 0 * v m)) = 1.
Proof.
  intros U H. rewrite (tab_ext _ _ (fun m => nth m w 0)) by (intros m Hm; rewrite H by exact Hm; ring).
  replace (tab (length w) (fun m => nth m w 0)) with w; [exact U|]. apply (list_eq_nth 0); [now rewrite tab_length|]. intros i Hi. now rewrite tab_nth.
Qed.
Lemma sum_hole (w : vec) (v : nat -> R) k : unit_sum w -> Forall (fun x => 0 < x) w -> (forall m, (m < length w)%nat -> v m = 0 \/ v m = 1) -> (k < length w)%nat -> v k = 0 ->
  0 <= Rsum (tab (length w) (fun m => nth m w 0 * v m)) < 1.
Proof.
  intros U P H K E. assert (Pn : forall m, (m < length w)%nat -> 0 < nth m w 0) by (intros m Hm; rewrite Forall_forall in P; apply P, nth_In, Hm).
  split.
  - apply Rle_trans with (Rsum (tab (length w) (fun _ => 0))); [rewrite Proofs_Trig.Rsum_tab_zero by easy; lra|]. apply Proofs_Trig.Rsum_tab_le. intros m Hm. specialize (Pn m Hm). destruct (H m Hm) as [-> | ->]; lra.
  - apply Rle_lt_trans with (Rsum (tab (length w) (fun m => nth m w 0 * 1 - (if Nat.eqb m k then nth k w 0 else 0)))).
    + apply Proofs_Trig.Rsum_tab_le. intros m Hm. specialize (Pn m Hm). destruct (Nat.eqb_spec m k) as [->|N]; [rewrite E; lra|]. destruct (H m Hm) as [-> | ->]; lra.
    + rewrite Proofs_Trig.Rsum_tab_minus, (sum_full w (fun _ => 1)) by easy.
      rewrite (Proofs_Trig.Rsum_tab_one _ _ k) by (try exact K; intros j _ N; now destruct (Nat.eqb_spec j k)).
      rewrite Nat.eqb_refl. specialize (Pn k K). lra.
Qed.
Lemma mask_value f w j : (j < length f)%nat -> unit_sum w -> Forall (fun x => 0 < x) w -> Forall (fun x => x = 0 \/ x = 1) f ->
  let v := cast DInt (nth j (convolve wrap_index f w) 0) in
  (v = 0 \/ v = 1) /\ (v = 1 <-> forall i, covers (length f) (length w) j i -> nth i f 0 = 1).
Proof.
  intros J U P M v. set (src m := Z.to_nat (wrap_index (Z.of_nat (length f)) (Z.of_nat j + Z.of_nat (length w / 2) - Z.of_nat m)%Z)).
  assert (S : forall m, (src m < length f)%nat) by (intros m; unfold src; pose proof (wrap_range (Z.of_nat (length f)) (Z.of_nat j + Z.of_nat (length w / 2) - Z.of_nat m) ltac:(lia)); lia).
  assert (B : forall m, nth (src m) f 0 = 0 \/ nth (src m) f 0 = 1) by (intros m; rewrite Forall_forall in M; apply M, nth_In, S).
  assert (V : v = cast DInt (Rsum (tab (length w) (fun m => nth m w 0 * nth (src m) f 0)))) by (unfold v; now rewrite conv_nth).
  assert (C : forall i, covers (length f) (length w) j i <-> exists m, (m < length w)%nat /\ i = src m).
  { intros i. unfold covers, src, wrap_index. split; intros [m [Hm E]]; exists m; split; try exact Hm; [now rewrite <- E, Nat2Z.id|].
    rewrite E, Z2Nat.id; [reflexivity|]. apply Z.mod_pos_bound. lia. }
  destruct (Forall_dec (fun m => nth (src m) f 0 = 1) (fun m => Req_EM_T _ _) (seq 0 (length w))) as [A|A].
  - rewrite Forall_forall in A. assert (V1 : v = 1).
    { rewrite V, sum_full; [|exact U|intros m Hm; apply A, in_seq; lia]. apply cast_integral. now exists 1%Z. }
    split; [now right|]. split; [|easy]. intros _ i Hi. apply C in Hi as [m [Hm ->]]. apply A, in_seq. lia.
  - assert (E : exists k, (k < length w)%nat /\ nth (src k) f 0 = 0).
    { apply neg_Forall_Exists_neg in A; [|intros m; apply Req_EM_T]. apply Exists_exists in A as [k [K1 K2]]. exists k. apply in_seq in K1. split; [lia|]. destruct (B k); [easy|contradiction]. }
    destruct E as [k [K E]]. assert (V0 : v = 0).
    { rewrite V. apply cast_small. pose proof (sum_hole w (fun m => nth (src m) f 0) k U P (fun m _ => B m) K E). rewrite Rabs_right; lra. }
    split; [now left|]. split; [lra|]. intros H. assert (nth (src k) f 0 = 1) by (apply H, C; eauto). lra.
Qed.

(** interpolation *)
Lemma one_level res rs om nt g : mk_grid res rs om nt = Ok g -> forall nc f qd lo hi c pole,
  known_method qd -> (0 < nc <= g_nlon g)%nat -> shaped (g_nlat g) nc f -> extremes (g_nlat g) nc f lo hi -> lo < c < hi ->
  exists y z, zonalize_contours g f (LArr [c]) qd = Ok ([c], [y]) /\ interpolate_meridional_1d g [c] [y] pole = Ok z /\ length z = g_nlat g
    /\ nth 0 z 0 = fst pole /\ nth (g_nlat g - 1) z 0 = snd pole
    /\ forall x, In x z -> no_overshoot [y] [c] pole x.
Proof.
  intros Hg nc f qd lo hi c pole Hm Hnc Sf [_ [[i [j [Hi [Hj L]]]] [i' [j' [Hi' [Hj' H]]]]]] Hc.
  pose proof (zonalize_form _ _ _ _ _ Hg nc f (LArr [c]) qd Hm Hnc Sf ltac:(discriminate)) as ZF. cbn [map zonalize_levels] in ZF.
  fold (farea res rs g qd nc f c) in ZF. set (y := eqlat1 g (farea res rs g qd nc f c)) in *. exists y.
  pose proof (fy_lt _ _ _ _ _ Hg qd nc f Hm Hnc c i' j' Hi' Hj' ltac:(lra)) as Y1. fold y in Y1.
  pose proof (fy_gt _ _ _ _ _ Hg qd nc f Hm Hnc c i j Hi Hj ltac:(lra)) as Y2. fold y in Y2.
  destruct (interp_1d_lemma [y] [c] pole (g_lat g) eq_refl) as [z [E [Lz Q]]].
  - intros x [<-|[]]. lra.
  - constructor; [easy|constructor].
  - exact (lat_poles g).
  - rewrite lat_length in Lz. exists z. split; [exact ZF|]. split; [exact E|]. split; [exact Lz|].
    pose proof (nlat_gt1' _ _ _ _ _ Hg) as N1. rewrite lat_length in Q. split; [|split].
    + destruct (Q 0%nat ltac:(lia)) as [_ [_ [_ [P _]]]]. apply P; [rewrite lat_nth by lia; cbn [INR]; lra|]. intros [X|[]]. lra.
    + destruct (Q (g_nlat g - 1)%nat ltac:(lia)) as [_ [_ [_ [_ P]]]]. apply P. rewrite lat_nth by lia. field. apply not_0_INR. lia.
    + intros x Hx. apply (In_nth _ _ 0) in Hx as [k [Hk <-]]. apply Q. lia.
Qed.
