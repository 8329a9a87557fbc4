(** Lemmas for C140. *)
From Coq Require Export String.
From Verif Require Import Base Model_Grid Model_Region Model_Deriv Model_Quad Model_Spectral Model_Fourier Model_Ranges Model_Ks.
From Verif Require Import Proofs_Base Proofs_Grid Proofs_Region Model_Inplace Spec_Inplace.
From Coq Require Import List Lia Lra FinFun.
Import ListNotations.
Open Scope R_scope.
Notation length := List.length.

(** ** Steps *)
Lemma b_load {A B} (d : A) a (k : list A -> prog A B) m : pbind (load d a) k m = k (held d m a) m. Proof. reflexivity. Qed.
Lemma b_load2 {A B} (d : A) a (k : list (list A) -> prog A B) m : pbind (load2 d a) k m = k (held2 d m a) m. Proof. reflexivity. Qed.
Lemma b_alloc {A B} (l : list A) (k : arr -> prog A B) m : pbind (alloc l) k m = k (seq (length m) (length l)) (m ++ l). Proof. reflexivity. Qed.
Lemma b_alloc2 {A B} (l : list (list A)) (k : arr2 -> prog A B) m : pbind (alloc2 l) k m = k (rows_at (length m) l) (m ++ concat l). Proof. reflexivity. Qed.
Lemma b_ret {A B C} (x : C) (k : C -> prog A B) m : pbind (pret x) k m = k x m. Proof. reflexivity. Qed.
Lemma b_lift {A B C} (x : C) (k : C -> prog A B) m : pbind (lift (Ok x)) k m = k x m. Proof. reflexivity. Qed.
Lemma b_lift_err {A B C} e (k : C -> prog A B) m : pbind (lift (Err e)) k m = (m, Err e). Proof. reflexivity. Qed.
Lemma b_raise {A B C} e (k : C -> prog A B) m : pbind (praise e) k m = (m, Err e). Proof. reflexivity. Qed.
Lemma b_assoc {A B C D} (p : prog A B) (k : B -> prog A C) (k' : C -> prog A D) m : pbind (pbind p k) k' m = pbind p (fun x => pbind (k x) k') m.
Proof. unfold pbind. destruct (p m) as [m' [x|e]]; reflexivity. Qed.
Lemma b_assign {A B} a v (k : unit -> prog A B) m : length a = length v -> pbind (assign a v) k m = k tt (pokes a v m).
Proof. intros E. unfold pbind, assign. rewrite E, Nat.eqb_refl. reflexivity. Qed.
Lemma b_assign2 {A B} a v (k : unit -> prog A B) m : Forall2 (fun r s => length r = length s) a v -> pbind (assign2 a v) k m = k tt (pokes (concat a) (concat v) m).
Proof.
  intros E. unfold pbind, assign2. assert (L : length a = length v) by (induction E; cbn; congruence). rewrite L, Nat.eqb_refl.
  replace (forallb _ (combine a v)) with true; [reflexivity|]. symmetry. apply forallb_forall. clear L. induction E; cbn; [tauto|].
  intros p [<-|Hp]; [cbn; now apply Nat.eqb_eq|now apply IHE].
Qed.
Lemma b_fill {A B} a x (k : unit -> prog A B) m : pbind (fill a x) k m = k tt (pokes a (map (fun _ => x) a) m).
Proof. unfold fill. apply b_assign. now rewrite map_length. Qed.

(** ** Memory *)
Lemma poke_app {A} (p : list A) x y q : poke (length p) x (p ++ y :: q) = p ++ x :: q.
Proof. induction p; cbn; congruence. Qed.
Lemma poke_length {A} p (x : A) m : length (poke p x m) = length m.
Proof. revert p. induction m; intros [|p]; cbn; auto. Qed.
Lemma pokes_length {A} a (v m : list A) : length (pokes a v m) = length m.
Proof. revert v m. induction a; intros [|x v] m; cbn; auto. rewrite IHa. apply poke_length. Qed.
Fixpoint choose {A} (mask : list bool) (v l : list A) : list A :=
  match mask, v, l with b :: mask, x :: v, y :: l => (if b then x else y) :: choose mask v l | _, _, _ => [] end.
Lemma choose_length {A} mask : forall (v l : list A), length mask = length l -> length v = length l -> length (choose mask v l) = length l.
Proof. induction mask; intros [|x v] [|y l]; cbn; intros; try lia. f_equal. apply IHmask; lia. Qed.
Lemma choose_nth {A} (d : A) mask : forall v l i, length mask = length l -> length v = length l -> (i < length l)%nat ->
  nth i (choose mask v l) d = if nth i mask false then nth i v d else nth i l d.
Proof. induction mask; intros [|x v] [|y l] [|i]; cbn; intros; try lia; auto. apply IHmask; lia. Qed.
Lemma pokes_compress {A} mask : forall (v l p q : list A), length mask = length l -> length v = length l ->
  pokes (compress mask (seq (length p) (length l))) (compress mask v) (p ++ l ++ q) = p ++ choose mask v l ++ q.
Proof.
  induction mask as [|b mask IH]; intros [|x v] [|y l] p q; cbn [length]; intros H1 H2; try lia; [reflexivity|]. cbn [seq compress choose].
  assert (E : forall z, p ++ z :: l ++ q = (p ++ [z]) ++ l ++ q) by (intros; now rewrite <- app_assoc).
  assert (L : S (length p) = length (p ++ [x])) by (rewrite app_length; cbn; lia).
  destruct b; cbn [pokes app].
  - rewrite poke_app. rewrite E. rewrite L. rewrite IH by lia. now rewrite <- app_assoc.
  - rewrite E. rewrite L. replace (length (p ++ [x])) with (length (p ++ [y])) by (rewrite !app_length; reflexivity). rewrite IH by lia. now rewrite <- app_assoc.
Qed.
Lemma compress_map2 {X Y Z} (f : X -> Y -> Z) mask : forall a b, length a = length mask -> length b = length mask ->
  map2 f (compress mask a) (compress mask b) = compress mask (map2 f a b).
Proof. induction mask as [|c mask IH]; intros [|x a] [|y b]; cbn; intros; try lia; [reflexivity|]. destruct c; cbn; rewrite IH by lia; reflexivity. Qed.
Lemma compress_map {X Y} (f : X -> Y) mask : forall a, map f (compress mask a) = compress mask (map f a).
Proof. induction mask as [|c mask IH]; intros [|x a]; cbn; auto. destruct c; cbn; rewrite IH; reflexivity. Qed.
Lemma compress_length_eq {X Y} mask : forall (a : list X) (b : list Y), length a = length b -> length (compress mask a) = length (compress mask b).
Proof. induction mask as [|c mask IH]; intros [|x a] [|y b]; cbn; intros; try lia. destruct c; cbn; rewrite (IH a b) by lia; reflexivity. Qed.
Lemma held_compress {A} (d : A) m mask a : held d m (compress mask a) = compress mask (held d m a).
Proof. apply compress_map. Qed.

Lemma held_app {A} (d : A) m x a : present m a -> held d (m ++ x) a = held d m a.
Proof. intros H. apply map_ext_in. intros p Hp. unfold present in H. rewrite Forall_forall in H. apply app_nth1. now apply H. Qed.
Lemma held2_app {A} (d : A) m x a : present2 m a -> held2 d (m ++ x) a = held2 d m a.
Proof. intros H. apply map_ext_in. intros p Hp. unfold present2 in H. rewrite Forall_forall in H. apply held_app. now apply H. Qed.
Lemma held_seq {A} (d : A) p l q : held d (p ++ l ++ q) (seq (length p) (length l)) = l.
Proof.
  unfold held. revert p. induction l as [|x l IH]; intros p; cbn [length seq map]; [reflexivity|]. f_equal.
  - rewrite app_nth2, Nat.sub_diag by lia. reflexivity.
  - replace (p ++ (x :: l) ++ q) with ((p ++ [x]) ++ l ++ q) by (rewrite <- app_assoc; reflexivity).
    replace (S (length p)) with (length (p ++ [x])) by (rewrite app_length; cbn; lia). apply IH.
Qed.
Lemma held_seq0 {A} (d : A) p l : held d (p ++ l) (seq (length p) (length l)) = l.
Proof. rewrite <- (app_nil_r l) at 1. apply held_seq. Qed.
Lemma present_app {A} (m x : list A) a : present m a -> present (m ++ x) a.
Proof. intros H. eapply Forall_impl; [|exact H]. intros p Hp. cbv beta in *. rewrite app_length. lia. Qed.
Lemma present2_app {A} (m x : list A) a : present2 m a -> present2 (m ++ x) a.
Proof. intros H. eapply Forall_impl; [|exact H]. intros p Hp. now apply present_app. Qed.

(** rows of new arrays *)
Lemma rows_at_concat {A} (l : list (list A)) : forall p, concat (rows_at p l) = seq p (length (concat l)).
Proof. induction l as [|r l IH]; intros p; cbn; [reflexivity|]. rewrite IH, app_length, seq_app. reflexivity. Qed.
Lemma rows_at_length {A} (l : list (list A)) p : length (rows_at p l) = length l.
Proof. revert p. induction l; cbn; intros; auto. Qed.
Lemma held2_rows {A} (d : A) l : forall p q, held2 d (p ++ concat l ++ q) (rows_at (length p) l) = l.
Proof.
  unfold held2. induction l as [|r l IH]; intros p q; cbn [rows_at map concat]; [reflexivity|]. f_equal.
  - rewrite <- app_assoc. apply held_seq.
  - replace (p ++ (r ++ concat l) ++ q) with ((p ++ r) ++ concat l ++ q) by (rewrite <- !app_assoc; reflexivity).
    rewrite <- app_length. apply IH.
Qed.
Lemma held2_rows0 {A} (d : A) p l : held2 d (p ++ concat l) (rows_at (length p) l) = l.
Proof. rewrite <- (app_nil_r (concat l)) at 1. apply held2_rows. Qed.
Lemma rows_at_skipn {A} i : forall (l : list (list A)) p, skipn i (rows_at p l) = rows_at (p + length (concat (firstn i l))) (skipn i l).
Proof.
  induction i as [|i IH]; intros [|r l] p; cbn; try reflexivity.
  - now rewrite Nat.add_0_r.
  - rewrite IH, app_length. f_equal. lia.
Qed.
Lemma rows_at_firstn {A} i : forall (l : list (list A)) p, firstn i (rows_at p l) = rows_at p (firstn i l).
Proof. induction i as [|i IH]; intros [|r l] p; cbn; try reflexivity. now rewrite IH. Qed.
Lemma rows_at_shape {A B} (l : list (list A)) (v : list (list B)) : forall p, Forall2 (fun r s => length r = length s) l v ->
  Forall2 (fun r s => length r = length s) (rows_at p l) v.
Proof. intros p H. revert p. induction H; intros p; cbn; constructor; auto. now rewrite seq_length. Qed.
Lemma skipn_twice {A} n : forall k (l : list A), skipn k (skipn n l) = skipn (n + k) l.
Proof. induction n as [|n IH]; intros k [|x l]; cbn; auto. destruct k; reflexivity. Qed.
Definition upd {A} (i : nat) (v l : list A) : list A := firstn i l ++ v ++ skipn (i + length v) l.
Lemma upd_length {A} i (v l : list A) : (i + length v <= length l)%nat -> length (upd i v l) = length l.
Proof. intros H. unfold upd. rewrite !app_length, firstn_length, skipn_length. lia. Qed.
Lemma upd_nth {A} (d : A) i v l k : (i + length v <= length l)%nat ->
  nth k (upd i v l) d = if Nat.leb i k && Nat.ltb k (i + length v) then nth (k - i) v d else nth k l d.
Proof.
  intros H. unfold upd. assert (L : length (firstn i l) = i) by (rewrite firstn_length; lia). destruct (Nat.leb_spec i k) as [G|G]; cbn [andb].
  - rewrite app_nth2, L by lia. destruct (Nat.ltb_spec k (i + length v)) as [G'|G'].
    + rewrite app_nth1 by lia. reflexivity.
    + rewrite app_nth2 by lia. rewrite <- (firstn_skipn (i + length v) l) at 2. rewrite (app_nth2 (firstn _ l)); rewrite firstn_length; [|lia].
      f_equal. lia.
  - rewrite app_nth1 by lia. rewrite <- (firstn_skipn i l) at 2. rewrite app_nth1 by lia. reflexivity.
Qed.
Lemma pokes_block {A} : forall (v l p q : list A), length v = length l -> pokes (seq (length p) (length l)) v (p ++ l ++ q) = p ++ v ++ q.
Proof.
  induction v as [|x v IH]; intros [|y l] p q; cbn [length]; intros E; try lia; [reflexivity|]. cbn [seq pokes app]. rewrite poke_app.
  replace (p ++ x :: l ++ q) with ((p ++ [x]) ++ l ++ q) by (rewrite <- app_assoc; reflexivity).
  replace (S (length p)) with (length (p ++ [x])) by (rewrite app_length; cbn; lia). rewrite IH by lia. rewrite <- app_assoc. reflexivity.
Qed.
Lemma concat_same {A B} (l : list (list A)) (v : list (list B)) : Forall2 (fun r s => length r = length s) l v -> length (concat l) = length (concat v).
Proof. induction 1; cbn; auto. rewrite !app_length. lia. Qed.
Lemma rows_write {A} (v l : list (list A)) p q i : Forall2 (fun r s => length r = length s) (firstn (length v) (skipn i l)) v ->
  pokes (concat (firstn (length v) (skipn i (rows_at (length p) l)))) (concat v) (p ++ concat l ++ q) = p ++ concat (upd i v l) ++ q.
Proof.
  intros H. rewrite rows_at_skipn, rows_at_firstn, rows_at_concat.
  pose proof (concat_same _ _ H) as E. set (w := firstn (length v) (skipn i l)) in *.
  assert (L : l = firstn i l ++ w ++ skipn (i + length v) l).
  { rewrite <- (firstn_skipn i l) at 1. f_equal. rewrite <- (firstn_skipn (length v) (skipn i l)) at 1. f_equal. apply skipn_twice. }
  rewrite L at 2. unfold upd. rewrite !concat_app. rewrite <- !app_assoc. rewrite (app_assoc p). rewrite <- (app_length p).
  rewrite pokes_block by lia. now rewrite <- !app_assoc.
Qed.
Lemma sl_length {X} i j (l : list X) : length (sl i j l) =
  (Nat.min (match j with Some j => slice_pos (length l) j | None => length l end - match i with Some i => slice_pos (length l) i | None => 0 end)
           (length l - match i with Some i => slice_pos (length l) i | None => 0 end))%nat.
Proof. unfold sl. rewrite firstn_length, skipn_length. reflexivity. Qed.
Lemma sl_map {X Y} (f : X -> Y) i j l : sl i j (map f l) = map f (sl i j l).
Proof. unfold sl. rewrite map_length, skipn_map, firstn_map. reflexivity. Qed.
Lemma slice_pos_nat n k : slice_pos n (Z.of_nat k) = Nat.min k n.
Proof. unfold slice_pos. destruct (Z.ltb_spec (Z.of_nat k) 0); lia. Qed.
Lemma slice_pos_neg n k : (0 < k)%nat -> slice_pos n (- Z.of_nat k) = (n - k)%nat.
Proof. intros H. unfold slice_pos. destruct (Z.ltb_spec (- Z.of_nat k) 0); lia. Qed.
Lemma sl_nth {X} (d : X) i j l k : (k < length (sl i j l))%nat ->
  nth k (sl i j l) d = nth (k + match i with Some i => slice_pos (length l) i | None => 0 end) l d.
Proof.
  intros H. rewrite sl_length in H. unfold sl. set (a := match i with Some i => slice_pos (length l) i | None => 0%nat end) in *.
  rewrite <- (firstn_skipn (match j with Some j => slice_pos (length l) j | None => length l end - a) (skipn a l)) at 1.
  assert (G : (k < length (firstn (match j with Some j => slice_pos (length l) j | None => length l end - a) (skipn a l)))%nat).
  { rewrite firstn_length, skipn_length. lia. }
  rewrite firstn_skipn.
  transitivity (nth k (skipn a l) d).
  - rewrite <- (firstn_skipn (match j with Some j => slice_pos (length l) j | None => length l end - a) (skipn a l)) at 2. rewrite app_nth1 by exact G. reflexivity.
  - rewrite <- (firstn_skipn a l) at 2. destruct (Nat.le_gt_cases a (length l)) as [La|La].
    + rewrite app_nth2; rewrite firstn_length; [|lia]. f_equal. lia.
    + exfalso. lia.
Qed.
Lemma present_sl {A} (m : list A) i j a : present m a -> present m (sl i j a).
Proof.
  unfold present. rewrite !Forall_forall. intros H x Hx. apply H. unfold sl in Hx.
  assert (S1 : forall n (l : arr), In x (firstn n l) -> In x l) by (intros n l Hi; rewrite <- (firstn_skipn n l); apply in_or_app; auto).
  assert (S2 : forall n (l : arr), In x (skipn n l) -> In x l) by (intros n l Hi; rewrite <- (firstn_skipn n l); apply in_or_app; auto).
  eauto.
Qed.
Lemma present2_sl {A} (m : list A) i j a : present2 m a -> present2 m (sl i j a).
Proof.
  unfold present2. rewrite !Forall_forall. intros H x Hx. apply H. unfold sl in Hx.
  assert (S1 : forall n (l : arr2), In x (firstn n l) -> In x l) by (intros n l Hi; rewrite <- (firstn_skipn n l); apply in_or_app; auto).
  assert (S2 : forall n (l : arr2), In x (skipn n l) -> In x l) by (intros n l Hi; rewrite <- (firstn_skipn n l); apply in_or_app; auto).
  eauto.
Qed.

(** ** The meridional derivative *)
Lemma rows_at_same {A B} (l : list (list A)) (v : list (list B)) : Forall2 (fun r s => length r = length s) l v -> forall p, rows_at p l = rows_at p v.
Proof. induction 1 as [|r s l v E _ IH]; intros p; cbn; [reflexivity|]. now rewrite E, IH. Qed.
Lemma shaped_same {A B} nr nc (l : list (list A)) (v : list (list B)) : shaped nr nc l -> shaped nr nc v -> Forall2 (fun r s => length r = length s) l v.
Proof.
  intros [L1 F1] [L2 F2]. rewrite <- L2 in L1. clear L2. revert v L1 F2. induction F1 as [|r l E F1 IH]; intros [|s v]; cbn; intros L1 F2; try lia; constructor.
  - inversion F2; congruence.
  - apply IH; [lia|now inversion F2].
Qed.
Lemma shaped_firstn {A} nr nc (l : list (list A)) i k : shaped nr nc l -> (i + k <= nr)%nat -> shaped k nc (firstn k (skipn i l)).
Proof.
  intros [L F] H. split; [rewrite firstn_length, skipn_length; lia|].
  apply Forall_forall. intros r Hr. rewrite Forall_forall in F. apply F. rewrite <- (firstn_skipn i l). apply in_or_app. right.
  rewrite <- (firstn_skipn k (skipn i l)). apply in_or_app. now left.
Qed.
Lemma shaped_upd {A} nr nc (v l : list (list A)) i k : shaped nr nc l -> shaped k nc v -> (i + k <= nr)%nat -> shaped nr nc (upd i v l).
Proof.
  intros [L F] [L' F'] H. split; [rewrite upd_length; lia|]. unfold upd. rewrite Forall_forall in *. intros r Hr.
  apply in_app_or in Hr as [Hr|Hr]; [apply F; rewrite <- (firstn_skipn i l); apply in_or_app; now left|].
  apply in_app_or in Hr as [Hr|Hr]; [now apply F'|]. apply F. rewrite <- (firstn_skipn (i + length v) l). apply in_or_app. now right.
Qed.
Lemma shaped_row {A} nr nc (l : list (list A)) i : shaped nr nc l -> (i < nr)%nat -> length (nth i l []) = nc.
Proof. intros [L F] H. rewrite Forall_forall in F. apply F, nth_In. lia. Qed.

Lemma firstn_one {X} (d : X) : forall l k, (k < length l)%nat -> firstn 1 (skipn k l) = [nth k l d].
Proof. induction l as [|r l IH]; intros [|k] H; cbn in H; try lia; [reflexivity|]. cbn [skipn nth]. apply IH. lia. Qed.
Lemma rows_at_row {A} (L : list (list A)) nc : forall k p, (k < length L)%nat -> Forall (fun r => length r = nc) L -> length (nth k (rows_at p L) []) = nc.
Proof.
  induction L as [|r L IH]; intros [|k] p H FL; cbn in H; try lia; cbn [rows_at nth]; inversion FL; subst; [apply seq_length|]. apply IH; [lia|assumption].
Qed.

Section Deriv.
Variables (m : vec) (f : arr2) (n nc : nat).
Hypothesis Pf : present2 m f.
Hypothesis Sf : shaped n nc f.
Let F := held2 0 m f.
Lemma F_shaped : shaped n nc F.
Proof. destruct Sf as [L Q]. split; [unfold F, held2; now rewrite map_length|]. unfold F, held2. apply Forall_map. eapply Forall_impl; [|exact Q]. intros r Hr. unfold held. now rewrite map_length. Qed.
Lemma item_ok {X} (d : X) (l : list X) i k : (0 <= i)%Z /\ Z.to_nat i = k \/ (i < 0)%Z /\ Z.to_nat (i + Z.of_nat (length l)) = k /\ (0 <= i + Z.of_nat (length l))%Z ->
  (k < length l)%nat -> item l i = Ok (nth k l d).
Proof.
  intros H Hk. unfold item. assert (E : (if (i <? 0)%Z then (i + Z.of_nat (length l))%Z else i) = Z.of_nat k).
  { destruct (Z.ltb_spec i 0); lia. }
  rewrite E. destruct (Z.ltb_spec (Z.of_nat k) 0); [lia|]. rewrite Nat2Z.id. rewrite (nth_error_nth' l d) by exact Hk. reflexivity.
Qed.
Lemma item_north {X} (d : X) (l : list X) i : (Z.to_nat i < length l)%nat -> (0 <= i)%Z -> item l i = Ok (nth (Z.to_nat i) l d).
Proof. intros. apply item_ok; auto. Qed.
Lemma item_south {X} (d : X) (l : list X) i : (0 < i)%Z -> (Z.to_nat i <= length l)%nat -> item l (- i) = Ok (nth (length l - Z.to_nat i) l d).
Proof. intros. apply item_ok; lia. Qed.
Lemma item_end {X} (d : X) (l : list X) i k N : length l = N -> (i < 0)%Z -> (k = N - Z.to_nat (- i))%nat -> (Z.to_nat (- i) <= N)%nat -> item l i = Ok (nth k l d).
Proof. intros. apply item_ok; lia. Qed.
Lemma item_beyond {X} (l : list X) i : (0 <= i)%Z -> (length l <= Z.to_nat i)%nat -> item l i = Err IndexError.
Proof.
  intros H L. unfold item. destruct (Z.ltb_spec i 0); [lia|]. destruct (Z.ltb_spec i 0); [lia|]. rewrite (proj2 (nth_error_None l (Z.to_nat i)) L). reflexivity.
Qed.
Lemma row_value x k B (q : vec -> prog R B) i : item f i = Ok (nth k f []) -> (k < n)%nat -> pbind (row f i) q (m ++ x) = q (nth k F []) (m ++ x).
Proof.
  intros E Hk. unfold row. rewrite b_assoc, E, b_lift. cbv beta. rewrite b_load. f_equal.
  assert (P : present m (nth k f [])). { unfold present2 in Pf. rewrite Forall_forall in Pf. apply Pf, nth_In. destruct Sf. lia. }
  rewrite held_app by exact P. unfold F, held2. rewrite (nth_map_lt (held 0 m) _ _ [] []) by (destruct Sf; lia). reflexivity.
Qed.
Lemma row_missing x B (q : vec -> prog R B) i : (0 <= i)%Z -> (n <= Z.to_nat i)%nat -> pbind (row f i) q (m ++ x) = (m ++ x, Err IndexError).
Proof. intros H L. unfold row. rewrite b_assoc, item_beyond by (destruct Sf; lia). reflexivity. Qed.
Definition zeros : mat := mmap (fun _ => 0) F.
Lemma zeros_shaped : shaped n nc zeros.
Proof. destruct F_shaped as [L Q]. split; [unfold zeros, mmap; now rewrite map_length|]. unfold zeros, mmap. apply Forall_map. eapply Forall_impl; [|exact Q]. intros r Hr. cbv beta in *. now rewrite map_length. Qed.
Let out := rows_at (length m) zeros.
Lemma set_row_value L k B (q : unit -> prog R B) i v : shaped n nc L -> item out i = Ok (nth k out []) -> (k < n)%nat -> length v = nc ->
  pbind (set_row out i v) q (m ++ concat L) = q tt (m ++ concat (upd k [v] L)).
Proof.
  intros SL E Hk Hv. assert (EO : out = rows_at (length m) L) by (unfold out; apply rows_at_same, (shaped_same n nc); [apply zeros_shaped|exact SL]).
  assert (LO : length out = n). { unfold out. rewrite rows_at_length. apply zeros_shaped. }
  assert (EN : firstn 1 (skipn k out) = [nth k out []]) by (apply firstn_one; lia).
  unfold set_row. rewrite b_assoc, E, b_lift. cbv beta. rewrite b_assign.
  - f_equal. pose proof (rows_write [v] L m [] k) as W. rewrite app_nil_r in W. rewrite <- EO in W. cbn [length] in W. rewrite EN in W. cbn [concat] in W.
    rewrite !app_nil_r in W. rewrite W; [reflexivity|]. apply (shaped_same 1 nc); [apply (shaped_firstn n); [assumption|lia]|]. split; [reflexivity|]. now constructor.
  - rewrite Hv, EO. destruct SL as [LL FL]. apply rows_at_row; [lia|assumption].
Qed.
Lemma slice_value L V a k i j B (q : unit -> prog R B) : shaped n nc L -> shaped k nc V -> (a + k <= n)%nat ->
  sl i j out = firstn k (skipn a out) ->
  pbind (assign2 (sl i j out) V) q (m ++ concat L) = q tt (m ++ concat (upd a V L)).
Proof.
  intros SL SV H E. assert (EO : out = rows_at (length m) L) by (unfold out; apply rows_at_same, (shaped_same n nc); [apply zeros_shaped|exact SL]).
  rewrite E, EO. assert (LV : length V = k) by apply SV. rewrite b_assign2.
  - f_equal. pose proof (rows_write V L m [] a) as W. rewrite !app_nil_r in W. rewrite <- LV. apply W. rewrite LV. apply (shaped_same k nc); [apply (shaped_firstn n); [assumption|lia]|assumption].
  - rewrite rows_at_skipn, rows_at_firstn. apply rows_at_shape, (shaped_same k nc); [apply (shaped_firstn n); [assumption|lia]|assumption].
Qed.
End Deriv.

Lemma computes_new {A} (d : A) p m x l : p m = ((m ++ x) ++ l, Ok (seq (length (m ++ x)) (length l))) -> computes d p m (Ok l).
Proof.
  intros E. exists (x ++ l). rewrite E. cbn [fst snd]. split; [now rewrite app_assoc|]. eexists. split; [reflexivity|]. rewrite app_assoc. split; [apply held_seq0|]. split; [apply seq_NoDup|].
  apply Forall_forall. intros q Hq. apply in_seq in Hq. rewrite !app_length in *. lia.
Qed.
Lemma computes_own {A} (d : A) p m l : p m = (m ++ l, Ok (seq (length m) (length l))) -> computes d p m (Ok l).
Proof. intros E. apply (computes_new d p m []). now rewrite app_nil_r. Qed.
Lemma computes2_new {A} (d : A) p m x l : p m = ((m ++ x) ++ concat l, Ok (rows_at (length (m ++ x)) l)) -> computes2 d p m (Ok l).
Proof.
  intros E. exists (x ++ concat l). rewrite E. cbn [fst snd]. split; [now rewrite app_assoc|]. eexists. split; [reflexivity|]. rewrite app_assoc. split; [apply held2_rows0|].
  rewrite rows_at_concat. split; [apply seq_NoDup|]. apply Forall_forall. intros q Hq. apply in_seq in Hq. rewrite !app_length in *. lia.
Qed.
Lemma computes2_own {A} (d : A) p m l : p m = (m ++ concat l, Ok (rows_at (length m) l)) -> computes2 d p m (Ok l).
Proof. intros E. apply (computes2_new d p m []). now rewrite app_nil_r. Qed.
Lemma computes2_err {A} (d : A) p m x e : p m = (m ++ x, Err e) -> computes2 d p m (Err e).
Proof. intros E. exists x. rewrite E. split; reflexivity. Qed.
Lemma computes_err {A} (d : A) p m x e : p m = (m ++ x, Err e) -> computes d p m (Err e).
Proof. intros E. exists x. rewrite E. split; reflexivity. Qed.

(** entries *)
Lemma mget_map2 (h : R -> R -> R) nr nc A B i j : shaped nr nc A -> shaped nr nc B -> (i < nr)%nat -> (j < nc)%nat ->
  mget (map2 (map2 h) A B) i j = h (mget A i j) (mget B i j).
Proof.
  intros [LA FA] [LB FB] Hi Hj. unfold mget. rewrite (Proofs_Base.map2_nth _ A B i [] [] []) by lia. rewrite Forall_forall in FA, FB.
  rewrite (Proofs_Base.map2_nth _ _ _ j 0 0 0); [reflexivity| |]; [rewrite FA by (apply nth_In; lia)|rewrite FB by (apply nth_In; lia)]; exact Hj.
Qed.
Lemma shaped_map2 {X Y Z} (h : X -> Y -> Z) nr nc A B : shaped nr nc A -> shaped nr nc B -> shaped nr nc (map2 (map2 h) A B).
Proof.
  intros [LA FA] [LB FB]. split; [rewrite map2_length; lia|]. rewrite <- LB in LA. clear LB. revert B LA FB. induction FA as [|r A E FA IH]; intros [|s B] LA FB; cbn in *; try constructor.
  - rewrite map2_length. inversion FB; subst. lia.
  - apply IH; [lia|now inversion FB].
Qed.
Lemma shaped_mmap {X Y} (h : X -> Y) nr nc A : shaped nr nc A -> shaped nr nc (map (map h) A).
Proof. intros [L F]. split; [now rewrite map_length|]. apply Forall_map. eapply Forall_impl; [|exact F]. intros r Hr. cbv beta in *. now rewrite map_length. Qed.
Lemma mget_mmap (h : R -> R) nr nc A i j : shaped nr nc A -> (i < nr)%nat -> (j < nc)%nat -> mget (map (map h) A) i j = h (mget A i j).
Proof.
  intros [LA FA] Hi Hj. unfold mget. rewrite (nth_map_lt (map h) A i [] []) by lia. rewrite Forall_forall in FA.
  rewrite (nth_map_lt h _ j 0 0); [reflexivity|]. rewrite FA by (apply nth_In; lia). exact Hj.
Qed.
Lemma mget_upd nr nc (V L : mat) a k i j : shaped nr nc L -> shaped k nc V -> (a + k <= nr)%nat ->
  mget (upd a V L) i j = if Nat.leb a i && Nat.ltb i (a + k) then mget V (i - a) j else mget L i j.
Proof. intros SL SV H. unfold mget. destruct SL as [LL _], SV as [LV _]. rewrite upd_nth by lia. rewrite LV. destruct (_ && _); reflexivity. Qed.
Lemma shaped_sl {X} nr nc (A : list (list X)) i j : shaped nr nc A -> shaped (length (sl i j A)) nc (sl i j A).
Proof.
  intros [L F]. split; [reflexivity|]. apply Forall_forall. intros r Hr. rewrite Forall_forall in F. apply F. unfold sl in Hr.
  match type of Hr with In _ (firstn ?a (skipn ?b A)) => rewrite <- (firstn_skipn b A); apply in_or_app; right; rewrite <- (firstn_skipn a (skipn b A)); apply in_or_app; now left end.
Qed.
Lemma mat_of_entries nr nc A (h : nat -> nat -> R) : shaped nr nc A -> (forall i j, (i < nr)%nat -> (j < nc)%nat -> mget A i j = h i j) -> A = mat_of nr nc h.
Proof.
  intros [LA FA] H. apply (nth_ext _ _ [] []); [unfold mat_of; now rewrite tab_length|]. intros i Hi. unfold mat_of. rewrite tab_nth by lia.
  rewrite Forall_forall in FA. apply (nth_ext _ _ 0 0); [rewrite tab_length; apply FA, nth_In; lia|]. intros j Hj. rewrite FA in Hj by (apply nth_In; lia). rewrite tab_nth by exact Hj. apply H; lia.
Qed.

Section Deriv2.
Variables (m : vec) (f : arr2) (n nc : nat).
Hypothesis Pf : present2 m f.
Hypothesis Sf : shaped n nc f.
Notation F := (held2 0 m f).
Lemma sl_value x i j B (q : mat -> prog R B) : pbind (load2 0 (sl i j f)) q (m ++ x) = q (sl i j F) (m ++ x).
Proof. rewrite b_load2. f_equal. rewrite held2_app by (now apply present2_sl). unfold held2. now rewrite sl_map. Qed.
Lemma mget_sl i j a k r c : (forall X (l : list X), length l = n -> length (sl i j l) = k) ->
  match i with Some i => slice_pos n i | None => 0%nat end = a -> (r < k)%nat -> mget (sl i j F) r c = mget F (r + a) c.
Proof.
  intros Hk Ha Hr. destruct (F_shaped m f n nc Sf) as [LF _]. unfold mget. rewrite sl_nth by (rewrite (Hk _ F LF); exact Hr). rewrite LF, Ha. reflexivity.
Qed.
Lemma row_entry k j : mget F k j = nth j (nth k F []) 0. Proof. reflexivity. Qed.

Definition order2_rows (ndim : nat) : mat :=
  let inner := upd (Nat.min 1 n) (msub (sl (Some 2%Z) None F) (sl None (Some (-2)%Z) F)) (mmap (fun _ => 0) F) in
  if Nat.eqb ndim 1 then inner
  else upd (n - 1) [vadd (vsub (nth (n - 3) F []) (vscale 4 (nth (n - 2) F []))) (vscale 3 (nth (n - 1) F []))]
         (upd 0 [vsub (vadd (vscale (-3) (nth 0 F [])) (vscale 4 (nth 1 F []))) (nth 2 F [])] inner).
Lemma len2a X (l : list X) : length l = n -> length (sl (Some 2%Z) None l) = (n - 2)%nat.
Proof. intros E. rewrite sl_length, E. unfold slice_pos. cbn [Z.ltb Z.compare]. lia. Qed.
Lemma len2b X (l : list X) : length l = n -> length (sl None (Some (-2)%Z) l) = (n - 2)%nat.
Proof. intros E. rewrite sl_length, E. unfold slice_pos. cbn [Z.ltb Z.compare]. lia. Qed.
Lemma inner_shaped : shaped (n - 2) nc (msub (sl (Some 2%Z) None F) (sl None (Some (-2)%Z) F)).
Proof.
  pose proof (F_shaped m f n nc Sf) as SF. pose proof (shaped_sl _ _ _ (Some 2%Z) None SF) as S1. pose proof (shaped_sl _ _ _ None (Some (-2)%Z) SF) as S2.
  rewrite len2a in S1 by apply SF. rewrite len2b in S2 by apply SF. apply (shaped_map2 Rminus); assumption.
Qed.
Lemma vlen (h : R -> R -> R) a b : length a = nc -> length b = nc -> length (map2 h a b) = nc.
Proof. intros. rewrite map2_length. lia. Qed.
Lemma slen c a : length a = nc -> length (vscale c a) = nc.
Proof. intros. unfold vscale. now rewrite map_length. Qed.
Lemma single_shaped (v : vec) : length v = nc -> shaped 1 nc [v].
Proof. intros E. split; [reflexivity|]. now constructor. Qed.
Lemma row_len k : (k < n)%nat -> length (nth k F []) = nc.
Proof. intros H. now apply (shaped_row n), H; apply F_shaped. Qed.
Lemma order2_run g ndim order : order = ONum 2 -> (ndim <= 2)%nat -> (3 <= g_nlat g)%nat -> (ndim <> 1%nat -> 3 <= n)%nat ->
  shaped n nc (order2_rows ndim)
  /\ derivative_inplace g ndim f order m = alloc2 (mmap (fun x => x / 2 / g_dphi g) (order2_rows ndim)) (m ++ concat (order2_rows ndim)).
Proof.
  intros EO Hd Hg Hn. subst order. pose proof (F_shaped m f n nc Sf) as SF. pose proof (zeros_shaped m f n nc Sf) as SZ.
  assert (SI : shaped n nc (upd (Nat.min 1 n) (msub (sl (Some 2%Z) None F) (sl None (Some (-2)%Z) F)) (mmap (fun _ => 0) F))).
  { apply (shaped_upd n nc _ _ _ (n - 2)); [exact SZ|exact inner_shaped|lia]. }
  unfold derivative_inplace. rewrite (proj2 (Nat.leb_le ndim 2) Hd). unfold check at 1. rewrite b_ret. rewrite b_load2. rewrite b_alloc2.
  unfold Reqb. destruct (Req_EM_T 2 2) as [_|N]; [|lra]. rewrite (proj2 (Nat.leb_le 3 _) Hg). unfold check. rewrite b_ret.
  rewrite !sl_value. rewrite (slice_value m f n nc Sf (mmap (fun _ => 0) F) _ (Nat.min 1 n) (n - 2)); [|exact SZ|exact inner_shaped|lia|].
  2:{ unfold sl. rewrite rows_at_length. destruct SZ as [LZ _]. change (zeros m f) with (mmap (fun _ => 0) F) in *. rewrite LZ. unfold slice_pos. cbn [Z.ltb Z.compare].
      f_equal; [lia|]. f_equal. lia. }
  unfold order2_rows. destruct (Nat.eqb_spec ndim 1) as [E|E].
  - split; [exact SI|]. rewrite b_ret. cbv beta. rewrite b_load2.
    match goal with |- context[held2 0 (m ++ concat ?L) _] => rewrite (rows_at_same (mmap (fun _ => 0) F) L) by (now apply (shaped_same n nc)); rewrite held2_rows0 end.
    reflexivity.
  - specialize (Hn E). set (inner := upd (Nat.min 1 n) _ _) in *.
    assert (S1 : length (vsub (vadd (vscale (-3) (nth 0 F [])) (vscale 4 (nth 1 F []))) (nth 2 F [])) = nc) by (apply vlen; [apply vlen; apply slen; apply row_len; lia|apply row_len; lia]).
    assert (S2 : length (vadd (vsub (nth (n - 3) F []) (vscale 4 (nth (n - 2) F []))) (vscale 3 (nth (n - 1) F []))) = nc)
      by (apply vlen; [apply vlen; [|apply slen]; apply row_len; lia|apply slen; apply row_len; lia]).
    assert (SA := shaped_upd n nc _ _ 0 1 SI (single_shaped _ S1) ltac:(lia)).
    assert (SB := shaped_upd n nc _ _ (n - 1) 1 SA (single_shaped _ S2) ltac:(lia)).
    split; [exact SB|].
    assert (Lf : length f = n) by apply Sf. assert (LO : length (rows_at (length m) (zeros m f)) = n) by (rewrite rows_at_length; apply SZ).
    repeat (rewrite b_assoc; cbv beta).
    rewrite (row_value m f n nc Pf Sf _ 0) by (try apply (item_north []); lia). rewrite b_assoc; cbv beta.
    rewrite (row_value m f n nc Pf Sf _ 1) by (try apply (item_north []); lia). rewrite b_assoc; cbv beta.
    rewrite (row_value m f n nc Pf Sf _ 2) by (try apply (item_north []); lia). rewrite b_assoc; cbv beta.
    rewrite (set_row_value m f n nc Sf inner 0); [|exact SI|apply (item_north []); lia|lia|exact S1]. rewrite b_assoc; cbv beta.
    rewrite (row_value m f n nc Pf Sf _ (n - 3)) by (try apply (item_end [] _ _ _ n); lia). rewrite b_assoc; cbv beta.
    rewrite (row_value m f n nc Pf Sf _ (n - 2)) by (try apply (item_end [] _ _ _ n); lia). rewrite b_assoc; cbv beta.
    rewrite (row_value m f n nc Pf Sf _ (n - 1)) by (try apply (item_end [] _ _ _ n); lia).
    rewrite (set_row_value m f n nc Sf _ (n - 1)); [|exact SA|apply (item_end [] _ _ _ n); lia|lia|exact S2].
    cbv beta. rewrite b_load2.
    match goal with |- context[held2 0 (m ++ concat ?L) _] => rewrite (rows_at_same (mmap (fun _ => 0) F) L) by (now apply (shaped_same n nc)); rewrite held2_rows0 end.
    reflexivity.
Qed.
Lemma zero_entry i j : mget (mmap (fun _ => 0) F) i j = 0.
Proof.
  unfold mget, mmap. destruct (Nat.lt_ge_cases i (length F)) as [H|H]; [|rewrite (nth_overflow (map _ F) []) by (rewrite map_length; exact H); now destruct j].
  rewrite (nth_map_lt _ _ _ [] []) by exact H. destruct (Nat.lt_ge_cases j (length (nth i F []))) as [G|G]; [|now rewrite nth_overflow by (now rewrite map_length)].
  now rewrite (nth_map_lt _ _ _ 0) by exact G.
Qed.
Lemma vmap2_entry (h : R -> R -> R) a b j : length a = nc -> length b = nc -> (j < nc)%nat -> nth j (map2 h a b) 0 = h (nth j a 0) (nth j b 0).
Proof. intros. apply Proofs_Base.map2_nth; lia. Qed.
Lemma scale_entry c a j : length a = nc -> (j < nc)%nat -> nth j (vscale c a) 0 = c * nth j a 0.
Proof. intros. unfold vscale. rewrite (nth_map_lt _ _ _ 0) by lia. reflexivity. Qed.
Lemma single_entry (v : vec) j : mget [v] 0 j = nth j v 0. Proof. reflexivity. Qed.
Ltac lens := repeat first [apply vlen | apply slen | apply row_len; lia].
Ltac entries := repeat first [rewrite vmap2_entry by (lens; lia) | rewrite scale_entry by (lens; lia)].
Lemma order2_entry ndim i j : (ndim <> 1%nat -> 3 <= n)%nat -> (i < n)%nat -> (j < nc)%nat ->
  mget (order2_rows ndim) i j = if Nat.eqb ndim 1 && is_pole n i then 0 else stencil2 n (fun k => mget F k j) i.
Proof.
  intros Hn Hi Hj. pose proof (F_shaped m f n nc Sf) as SF. pose proof (zeros_shaped m f n nc Sf) as SZ.
  assert (SI : shaped n nc (upd (Nat.min 1 n) (msub (sl (Some 2%Z) None F) (sl None (Some (-2)%Z) F)) (mmap (fun _ => 0) F))).
  { apply (shaped_upd n nc _ _ _ (n - 2)); [exact SZ|exact inner_shaped|lia]. }
  assert (EI : mget (upd (Nat.min 1 n) (msub (sl (Some 2%Z) None F) (sl None (Some (-2)%Z) F)) (mmap (fun _ => 0) F)) i j
               = if is_pole n i then 0 else mget F (i + 1) j - mget F (i - 1) j).
  { rewrite (mget_upd n nc _ _ _ (n - 2)) by (first [exact SZ|exact inner_shaped|lia]). replace (Nat.min 1 n) with 1%nat by lia. unfold is_pole.
    destruct (Nat.eqb_spec i 0) as [->|I0]; cbn [orb]; [cbn [Nat.leb andb]; apply zero_entry|].
    destruct (Nat.eqb_spec i (n - 1)) as [I1|I1].
    - replace (Nat.ltb i (1 + (n - 2))) with false by (symmetry; apply Nat.ltb_ge; lia). rewrite Bool.andb_false_r. apply zero_entry.
    - replace (Nat.leb 1 i && Nat.ltb i (1 + (n - 2))) with true by (symmetry; apply andb_true_intro; split; [apply Nat.leb_le|apply Nat.ltb_lt]; lia).
      unfold msub, vsub. pose proof (shaped_sl _ _ _ (Some 2%Z) None SF) as S1. pose proof (shaped_sl _ _ _ None (Some (-2)%Z) SF) as S2.
      rewrite len2a in S1 by apply SF. rewrite len2b in S2 by apply SF.
      rewrite (mget_map2 Rminus (n - 2) nc) by (auto; lia).
      rewrite (mget_sl (Some 2%Z) None 2 (n - 2)); [|exact len2a|unfold slice_pos; cbn [Z.ltb Z.compare]; lia|lia].
      rewrite (mget_sl None (Some (-2)%Z) 0 (n - 2)); [|exact len2b|reflexivity|lia]. f_equal; f_equal; lia. }
  unfold order2_rows. destruct (Nat.eqb_spec ndim 1) as [E|E]; cbn [andb].
  - rewrite EI. destruct (is_pole n i) eqn:P; [reflexivity|]. unfold is_pole in P. apply Bool.orb_false_elim in P as [P1 P2]. unfold stencil2. rewrite P1, P2. reflexivity.
  - specialize (Hn E). set (inner := upd (Nat.min 1 n) _ _) in *.
    set (va := vsub (vadd (vscale (-3) (nth 0 F [])) (vscale 4 (nth 1 F []))) (nth 2 F [])).
    set (vb := vadd (vsub (nth (n - 3) F []) (vscale 4 (nth (n - 2) F []))) (vscale 3 (nth (n - 1) F []))).
    assert (S1 : length va = nc) by (unfold va; lens). assert (S2 : length vb = nc) by (unfold vb; lens).
    assert (SA := shaped_upd n nc _ _ 0 1 SI (single_shaped _ S1) ltac:(lia)).
    rewrite (mget_upd n nc _ _ _ 1) by (first [exact SA|now apply single_shaped|lia]).
    rewrite (mget_upd n nc _ _ 0 1) by (first [exact SI|now apply single_shaped|lia]). rewrite EI. unfold stencil2, is_pole.
    destruct (Nat.eqb_spec i 0) as [->|I0].
    + replace (Nat.leb (n - 1) 0) with false by (symmetry; apply Nat.leb_gt; lia). cbn [andb Nat.leb Nat.ltb Nat.add Nat.sub]. rewrite single_entry. unfold va, vsub, vadd. entries. rewrite !row_entry. lra.
    + destruct (Nat.eqb_spec i (n - 1)) as [I1|I1].
      * replace (Nat.leb (n - 1) i && Nat.ltb i (n - 1 + 1)) with true by (symmetry; apply andb_true_intro; split; [apply Nat.leb_le|apply Nat.ltb_lt]; lia).
        replace (i - (n - 1))%nat with 0%nat by lia. rewrite single_entry. unfold vb, vsub, vadd. entries. rewrite !row_entry. lra.
      * replace (Nat.leb (n - 1) i) with false by (symmetry; apply Nat.leb_gt; lia). cbn [andb].
        replace (Nat.ltb i (0 + 1)) with false by (symmetry; apply Nat.ltb_ge; lia). rewrite Bool.andb_false_r. cbn [orb]. reflexivity.
Qed.

Definition edge4n : vec := vadd (vsub (vadd (vsub (vscale (-3) (nth 0 F [])) (vscale 10 (nth 1 F []))) (vscale 18 (nth 2 F []))) (vscale 6 (nth 3 F []))) (nth 4 F []).
Definition edge4s : vec := vadd (vadd (vsub (vadd (vscale (-1) (nth (n - 5) F [])) (vscale 6 (nth (n - 4) F []))) (vscale 18 (nth (n - 3) F []))) (vscale 10 (nth (n - 2) F []))) (vscale 3 (nth (n - 1) F [])).
Definition pole4n : vec := vsub (vadd (vsub (vadd (vscale (-25) (nth 0 F [])) (vscale 48 (nth 1 F []))) (vscale 36 (nth 2 F []))) (vscale 16 (nth 3 F []))) (vscale 3 (nth 4 F [])).
Definition pole4s : vec := vadd (vsub (vadd (vsub (vscale 3 (nth (n - 5) F [])) (vscale 16 (nth (n - 4) F []))) (vscale 36 (nth (n - 3) F []))) (vscale 48 (nth (n - 2) F []))) (vscale 25 (nth (n - 1) F [])).
Definition inner4 : mat := msub (madd (msub (sl None (Some (-4)%Z) F) (mscale 8 (sl (Some 1%Z) (Some (-3)%Z) F))) (mscale 8 (sl (Some 3%Z) (Some (-1)%Z) F))) (sl (Some 4%Z) None F).
Definition order4_a := upd 1 [edge4n] (mmap (fun _ => 0) F).
Definition order4_b := upd 2 inner4 order4_a.
Definition order4_c := upd (n - 2) [edge4s] order4_b.
Definition order4_d := upd 0 [pole4n] order4_c.
Definition order4_rows (ndim : nat) : mat := if Nat.eqb ndim 1 then order4_c else upd (n - 1) [pole4s] order4_d.
Hypothesis H5 : (5 <= n)%nat.
Lemma len4 X (l : list X) i j k : length l = n -> ((i, j) = (None, Some (-4)%Z) \/ (i, j) = (Some 1%Z, Some (-3)%Z) \/ (i, j) = (Some 3%Z, Some (-1)%Z) \/ (i, j) = (Some 4%Z, None)) ->
  k = (n - 4)%nat -> length (sl i j l) = k.
Proof. intros E H ->. rewrite sl_length, E. destruct H as [H|[H|[H|H]]]; injection H as -> ->; unfold slice_pos; cbn [Z.ltb Z.compare]; lia. Qed.
Lemma part4 i j : ((i, j) = (None, Some (-4)%Z) \/ (i, j) = (Some 1%Z, Some (-3)%Z) \/ (i, j) = (Some 3%Z, Some (-1)%Z) \/ (i, j) = (Some 4%Z, None)) -> shaped (n - 4) nc (sl i j F).
Proof.
  intros H. pose proof (F_shaped m f n nc Sf) as SF. pose proof (shaped_sl _ _ _ i j SF) as S1. rewrite (len4 _ _ _ _ (n - 4)) in S1; auto. apply SF.
Qed.
Lemma inner4_shaped : shaped (n - 4) nc inner4.
Proof.
  unfold inner4. apply (shaped_map2 Rminus); [apply (shaped_map2 Rplus); [apply (shaped_map2 Rminus)|]|]; try (apply (shaped_mmap (Rmult 8))); apply part4; auto.
Qed.
Lemma s_a : shaped n nc order4_a. Proof. apply (shaped_upd n nc _ _ _ 1); [apply (zeros_shaped m f n nc Sf)|apply single_shaped; unfold edge4n; lens|lia]. Qed.
Lemma s_b : shaped n nc order4_b. Proof. apply (shaped_upd n nc _ _ _ (n - 4)); [exact s_a|exact inner4_shaped|lia]. Qed.
Lemma s_c : shaped n nc order4_c. Proof. apply (shaped_upd n nc _ _ _ 1); [exact s_b|apply single_shaped; unfold edge4s; lens|lia]. Qed.
Lemma s_d : shaped n nc order4_d. Proof. apply (shaped_upd n nc _ _ _ 1); [exact s_c|apply single_shaped; unfold pole4n; lens|lia]. Qed.
Lemma s_rows ndim : shaped n nc (order4_rows ndim).
Proof. unfold order4_rows. destruct (Nat.eqb ndim 1); [exact s_c|]. apply (shaped_upd n nc _ _ _ 1); [exact s_d|apply single_shaped; unfold pole4s; lens|lia]. Qed.
Lemma order4_run g ndim order : match order with ONum x => Reqb x 2 = false /\ Reqb x 4 = true | ONone => True | OOther => False end -> (ndim <= 2)%nat -> (5 <= g_nlat g)%nat ->
  derivative_inplace g ndim f order m = alloc2 (mmap (fun x => x / 12 / g_dphi g) (order4_rows ndim)) (m ++ concat (order4_rows ndim)).
Proof.
  intros EO Hd Hg. pose proof (F_shaped m f n nc Sf) as SF. pose proof (zeros_shaped m f n nc Sf) as SZ.
  assert (Lf : length f = n) by apply Sf. assert (LO : length (rows_at (length m) (zeros m f)) = n) by (rewrite rows_at_length; apply SZ).
  unfold derivative_inplace. rewrite (proj2 (Nat.leb_le ndim 2) Hd). unfold check at 1. rewrite b_ret. rewrite b_load2. rewrite b_alloc2.
  replace (match order with ONum x => Reqb x 2 | _ => false end) with false by (destruct order; try reflexivity; symmetry; apply EO).
  replace (match order with ONone => true | ONum x => Reqb x 4 | OOther => false end) with true by (destruct order; try reflexivity; [symmetry; apply EO|contradiction]).
  rewrite (proj2 (Nat.leb_le 5 _) Hg). unfold check. rewrite b_ret.
  rewrite (row_value m f n nc Pf Sf _ 0) by (try apply (item_north []); lia).
  rewrite (row_value m f n nc Pf Sf _ 1) by (try apply (item_north []); lia).
  rewrite (row_value m f n nc Pf Sf _ 2) by (try apply (item_north []); lia).
  rewrite (row_value m f n nc Pf Sf _ 3) by (try apply (item_north []); lia).
  rewrite (row_value m f n nc Pf Sf _ 4) by (try apply (item_north []); lia).
  change (concat (mmap (fun _ => 0) F)) with (concat (zeros m f)).
  rewrite (set_row_value m f n nc Sf (zeros m f) 1); [|exact SZ|apply (item_north []); lia|lia|lens].
  rewrite !sl_value.
  change (upd 1 _ (zeros m f)) with order4_a. rewrite (slice_value m f n nc Sf order4_a _ 2 (n - 4)); [|exact s_a|exact inner4_shaped|lia|].
  2:{ unfold sl. rewrite LO. unfold slice_pos. cbn [Z.ltb Z.compare]. f_equal; [lia|]. f_equal. lia. }
  rewrite (row_value m f n nc Pf Sf _ (n - 5)) by (try apply (item_end [] _ _ _ n); lia).
  rewrite (row_value m f n nc Pf Sf _ (n - 4)) by (try apply (item_end [] _ _ _ n); lia).
  rewrite (row_value m f n nc Pf Sf _ (n - 3)) by (try apply (item_end [] _ _ _ n); lia).
  rewrite (row_value m f n nc Pf Sf _ (n - 2)) by (try apply (item_end [] _ _ _ n); lia).
  rewrite (row_value m f n nc Pf Sf _ (n - 1)) by (try apply (item_end [] _ _ _ n); lia).
  change (upd 2 _ order4_a) with order4_b.
  rewrite (set_row_value m f n nc Sf order4_b (n - 2)); [|exact s_b|apply (item_end [] _ _ _ n); lia|lia|lens].
  change (upd (n - 2) _ order4_b) with order4_c. unfold order4_rows. destruct (Nat.eqb ndim 1).
  - rewrite b_ret. cbv beta. rewrite b_load2. change (mmap (fun _ => 0) F) with (zeros m f).
    rewrite (rows_at_same (zeros m f) order4_c) by (apply (shaped_same n nc); [exact SZ|exact s_c]). rewrite held2_rows0. reflexivity.
  - rewrite b_assoc.
    rewrite (set_row_value m f n nc Sf order4_c 0); [|exact s_c|apply (item_north []); lia|lia|lens].
    change (upd 0 _ order4_c) with order4_d.
    rewrite (set_row_value m f n nc Sf order4_d (n - 1)); [|exact s_d|apply (item_end [] _ _ _ n); lia|lia|lens].
    cbv beta. rewrite b_load2. change (mmap (fun _ => 0) F) with (zeros m f). change (upd (n - 1) _ order4_d) with (order4_rows 2).
    rewrite (rows_at_same (zeros m f) (order4_rows 2)) by (apply (shaped_same n nc); [exact SZ|apply s_rows]). rewrite held2_rows0. reflexivity.
Qed.
Lemma order4_entry ndim i j : (i < n)%nat -> (j < nc)%nat ->
  mget (order4_rows ndim) i j = if Nat.eqb ndim 1 && is_pole n i then 0 else stencil4 n (fun k => mget F k j) i.
Proof.
  intros Hi Hj.
  assert (EA : mget order4_a i j = if Nat.leb 1 i && Nat.ltb i (1 + 1) then nth j edge4n 0 else 0).
  { unfold order4_a. rewrite (mget_upd n nc _ _ _ 1); [|apply (zeros_shaped m f n nc Sf)|apply single_shaped; unfold edge4n; lens|lia]. rewrite zero_entry.
    destruct (Nat.leb_spec 1 i); [|reflexivity]. destruct (Nat.ltb_spec i (1 + 1)); [|reflexivity]. cbn [andb]. replace (i - 1)%nat with 0%nat by lia. reflexivity. }
  assert (EB : mget order4_b i j = if Nat.leb 2 i && Nat.ltb i (2 + (n - 4)) then mget F (i - 2) j - 8 * mget F (i - 1) j + 8 * mget F (i + 1) j - mget F (i + 2) j else mget order4_a i j).
  { unfold order4_b. rewrite (mget_upd n nc _ _ _ (n - 4)); [|exact s_a|exact inner4_shaped|lia]. destruct (Nat.leb_spec 2 i); [|reflexivity]. destruct (Nat.ltb_spec i (2 + (n - 4))); [|reflexivity].
    cbn [andb]. unfold inner4, msub, madd, mscale, vsub, vadd, vscale.
    assert (P1 := part4 None (Some (-4)%Z) ltac:(auto)). assert (P2 := part4 (Some 1%Z) (Some (-3)%Z) ltac:(auto)). assert (P3 := part4 (Some 3%Z) (Some (-1)%Z) ltac:(auto)). assert (P4 := part4 (Some 4%Z) None ltac:(auto)).
    assert (M2 := shaped_mmap (Rmult 8) _ _ _ P2). assert (M3 := shaped_mmap (Rmult 8) _ _ _ P3).
    assert (Q1 := shaped_map2 Rminus _ _ _ _ P1 M2). assert (Q2 := shaped_map2 Rplus _ _ _ _ Q1 M3).
    rewrite (mget_map2 Rminus (n - 4) nc) by (assumption || lia). rewrite (mget_map2 Rplus (n - 4) nc) by (assumption || lia). rewrite (mget_map2 Rminus (n - 4) nc) by (assumption || lia).
    rewrite !(mget_mmap (Rmult 8) (n - 4) nc) by (assumption || lia).
    rewrite (mget_sl None (Some (-4)%Z) 0 (n - 4)); [|intros; apply len4; auto|reflexivity|lia].
    rewrite (mget_sl (Some 1%Z) (Some (-3)%Z) 1 (n - 4)); [|intros; apply len4; auto|unfold slice_pos; cbn [Z.ltb Z.compare]; lia|lia].
    rewrite (mget_sl (Some 3%Z) (Some (-1)%Z) 3 (n - 4)); [|intros; apply len4; auto|unfold slice_pos; cbn [Z.ltb Z.compare]; lia|lia].
    rewrite (mget_sl (Some 4%Z) None 4 (n - 4)); [|intros; apply len4; auto|unfold slice_pos; cbn [Z.ltb Z.compare]; lia|lia].
    replace (i - 2 + 0)%nat with (i - 2)%nat by lia. replace (i - 2 + 1)%nat with (i - 1)%nat by lia. replace (i - 2 + 3)%nat with (i + 1)%nat by lia. replace (i - 2 + 4)%nat with (i + 2)%nat by lia. reflexivity. }
  assert (EC : mget order4_c i j = if Nat.eqb i (n - 2) then nth j edge4s 0 else mget order4_b i j).
  { unfold order4_c. rewrite (mget_upd n nc _ _ _ 1); [|exact s_b|apply single_shaped; unfold edge4s; lens|lia].
    destruct (Nat.eqb_spec i (n - 2)) as [E|E].
    - replace (Nat.leb (n - 2) i && Nat.ltb i (n - 2 + 1)) with true by (symmetry; apply andb_true_intro; split; [apply Nat.leb_le|apply Nat.ltb_lt]; lia). replace (i - (n - 2))%nat with 0%nat by lia. reflexivity.
    - destruct (Nat.leb_spec (n - 2) i); [|reflexivity]. destruct (Nat.ltb_spec i (n - 2 + 1)); [lia|reflexivity]. }
  assert (CC : mget order4_c i j = if is_pole n i then 0 else stencil4 n (fun k => mget F k j) i).
  { rewrite EC, EB, EA. unfold is_pole, stencil4. destruct (Nat.eqb_spec i 0) as [->|I0]; cbn [orb].
    - destruct (Nat.eqb_spec 0 (n - 2)); [lia|]. reflexivity.
    - destruct (Nat.eqb_spec i (n - 1)) as [I1|I1].
      + destruct (Nat.eqb_spec i (n - 2)); [lia|]. destruct (Nat.leb_spec 2 i); [|lia]. destruct (Nat.ltb_spec i (2 + (n - 4))); [lia|]. cbn [andb].
        destruct (Nat.ltb_spec i (1 + 1)); [lia|]. rewrite Bool.andb_false_r. reflexivity.
      + destruct (Nat.eqb_spec i (n - 2)) as [I2|I2].
        * destruct (Nat.eqb_spec i 1); [lia|]. unfold edge4s, vsub, vadd. entries. rewrite !row_entry. lra.
        * destruct (Nat.eqb_spec i 1) as [->|I3].
          -- cbn [Nat.leb andb Nat.ltb Nat.add]. unfold edge4n, vsub, vadd. entries. rewrite !row_entry. lra.
          -- destruct (Nat.leb_spec 2 i); [|lia]. destruct (Nat.ltb_spec i (2 + (n - 4))); [|lia]. reflexivity. }
  unfold order4_rows. destruct (Nat.eqb_spec ndim 1) as [E|E]; cbn [andb]; [exact CC|].
  rewrite (mget_upd n nc _ _ _ 1); [|exact s_d|apply single_shaped; unfold pole4s; lens|lia].
  unfold order4_d. rewrite (mget_upd n nc _ _ 0 1); [|exact s_c|apply single_shaped; unfold pole4n; lens|lia]. rewrite CC. unfold stencil4, is_pole.
  destruct (Nat.eqb_spec i 0) as [->|I0].
  - replace (Nat.leb (n - 1) 0) with false by (symmetry; apply Nat.leb_gt; lia). cbn [andb Nat.leb Nat.ltb Nat.add Nat.sub]. rewrite single_entry. unfold pole4n, vsub, vadd. entries. rewrite !row_entry. lra.
  - replace (Nat.ltb i (0 + 1)) with false by (symmetry; apply Nat.ltb_ge; lia). rewrite Bool.andb_false_r.
    destruct (Nat.eqb_spec i (n - 1)) as [I1|I1].
    + replace (Nat.leb (n - 1) i && Nat.ltb i (n - 1 + 1)) with true by (symmetry; apply andb_true_intro; split; [apply Nat.leb_le|apply Nat.ltb_lt]; lia).
      replace (i - (n - 1))%nat with 0%nat by lia. rewrite single_entry. destruct (Nat.eqb_spec i 1); [lia|]. unfold pole4s, vsub, vadd. entries. rewrite !row_entry. lra.
    + replace (Nat.leb (n - 1) i) with false by (symmetry; apply Nat.leb_gt; lia). cbn [andb orb]. reflexivity.
Qed.
End Deriv2.

Lemma derivative_missing g f m n nc order : present2 m f -> shaped n nc f -> (n < 5)%nat -> (5 <= g_nlat g)%nat ->
  match order with ONum x => Reqb x 2 = false /\ Reqb x 4 = true | ONone => True | OOther => False end ->
  forall ndim, (ndim <= 2)%nat -> derivative_inplace g ndim f order m = (m ++ concat (zeros m f), Err IndexError).
Proof.
  intros Pf Sf Hn Hg EO ndim Hd. unfold derivative_inplace. rewrite (proj2 (Nat.leb_le ndim 2) Hd). unfold check at 1. rewrite b_ret. rewrite b_load2. rewrite b_alloc2.
  replace (match order with ONum x => Reqb x 2 | _ => false end) with false by (destruct order; try reflexivity; symmetry; apply EO).
  replace (match order with ONone => true | ONum x => Reqb x 4 | OOther => false end) with true by (destruct order; try reflexivity; [symmetry; apply EO|contradiction]).
  rewrite (proj2 (Nat.leb_le 5 _) Hg). unfold check. rewrite b_ret. change (mmap (fun _ => 0) (held2 0 m f)) with (zeros m f).
  assert (Lf : length f = n) by apply Sf.
  destruct (Nat.lt_ge_cases 0 n); [rewrite (row_value m f n nc Pf Sf _ 0) by (try apply (item_north []); lia)|apply (row_missing m f n nc Sf); lia].
  destruct (Nat.lt_ge_cases 1 n); [rewrite (row_value m f n nc Pf Sf _ 1) by (try apply (item_north []); lia)|apply (row_missing m f n nc Sf); lia].
  destruct (Nat.lt_ge_cases 2 n); [rewrite (row_value m f n nc Pf Sf _ 2) by (try apply (item_north []); lia)|apply (row_missing m f n nc Sf); lia].
  destruct (Nat.lt_ge_cases 3 n); [rewrite (row_value m f n nc Pf Sf _ 3) by (try apply (item_north []); lia)|apply (row_missing m f n nc Sf); lia].
  apply (row_missing m f n nc Sf); lia.
Qed.
Lemma derivative_missing2 g f m n nc : present2 m f -> shaped n nc f -> (n < 3)%nat -> (3 <= g_nlat g)%nat ->
  exists x, derivative_inplace g 2 f (ONum 2) m = (m ++ x, Err IndexError).
Proof.
  intros Pf Sf Hn Hg. pose proof (zeros_shaped m f n nc Sf) as SZ. unfold derivative_inplace. change (Nat.leb 2 2) with true; change (Nat.eqb 2 1) with false; cbv iota. unfold check at 1. rewrite b_ret. rewrite b_load2. rewrite b_alloc2.
  unfold Reqb. destruct (Req_EM_T 2 2) as [_|N]; [|lra]. rewrite (proj2 (Nat.leb_le 3 _) Hg). unfold check. rewrite b_ret.
  rewrite !(sl_value m f Pf). rewrite (slice_value m f n nc Sf (mmap (fun _ => 0) (held2 0 m f)) _ (Nat.min 1 n) (n - 2)); [|exact SZ|apply inner_shaped; exact Sf|lia|].
  2:{ unfold sl. rewrite rows_at_length. destruct SZ as [LZ _]. change (zeros m f) with (mmap (fun _ => 0) (held2 0 m f)) in *. rewrite LZ. unfold slice_pos. cbn [Z.ltb Z.compare].
      f_equal; [lia|]. f_equal. lia. }
  assert (Lf : length f = n) by apply Sf. repeat (rewrite b_assoc; cbv beta). eexists.
  destruct (Nat.lt_ge_cases 0 n); [rewrite (row_value m f n nc Pf Sf _ 0) by (try apply (item_north []); lia)|apply (row_missing m f n nc Sf); lia]. rewrite b_assoc; cbv beta.
  destruct (Nat.lt_ge_cases 1 n); [rewrite (row_value m f n nc Pf Sf _ 1) by (try apply (item_north []); lia)|apply (row_missing m f n nc Sf); lia]. rewrite b_assoc; cbv beta.
  apply (row_missing m f n nc Sf); lia.
Qed.
Lemma order_cases order : order = ONum 2 \/ match order with ONum x => Reqb x 2 = false /\ Reqb x 4 = true | ONone => True | OOther => False end
  \/ match order with ONum x => Reqb x 2 = false /\ Reqb x 4 = false | ONone => False | OOther => True end.
Proof.
  destruct order as [|x|]; auto. unfold Reqb. destruct (Req_EM_T x 2) as [->|]; [auto|]. destruct (Req_EM_T x 4); auto.
Qed.
Lemma is2_of order : order = ONum 2 -> match order with ONum x => Reqb x 2 | _ => false end = true.
Proof. intros ->. unfold Reqb. destruct (Req_EM_T 2 2); [reflexivity|lra]. Qed.
Lemma is2_not order : match order with ONum x => Reqb x 2 = false /\ Reqb x 4 = true | ONone => True | OOther => False end ->
  match order with ONum x => Reqb x 2 | _ => false end = false /\ match order with ONone => true | ONum x => Reqb x 4 | OOther => false end = true.
Proof. destruct order; cbn; tauto. Qed.
Lemma is4_not order : match order with ONum x => Reqb x 2 = false /\ Reqb x 4 = false | ONone => False | OOther => True end ->
  match order with ONum x => Reqb x 2 | _ => false end = false /\ match order with ONone => true | ONum x => Reqb x 4 | OOther => false end = false.
Proof. destruct order; cbn; tauto. Qed.
Lemma derivative_few g ndim f order m : (ndim <= 2)%nat ->
  (order = ONum 2 -> (g_nlat g < 3)%nat -> derivative_inplace g ndim f order m = (m ++ concat (zeros m f), Err AssertionError))
  /\ (match order with ONum x => Reqb x 2 = false /\ Reqb x 4 = true | ONone => True | OOther => False end -> (g_nlat g < 5)%nat -> derivative_inplace g ndim f order m = (m ++ concat (zeros m f), Err AssertionError))
  /\ (match order with ONum x => Reqb x 2 = false /\ Reqb x 4 = false | ONone => False | OOther => True end -> derivative_inplace g ndim f order m = (m ++ concat (zeros m f), Err NotImplementedError)).
Proof.
  intros Hd. unfold derivative_inplace. rewrite (proj2 (Nat.leb_le ndim 2) Hd). unfold check at 1 3 5. rewrite !b_ret, !b_load2, !b_alloc2. split; [|split].
  - intros E Hg. rewrite (is2_of _ E). rewrite (proj2 (Nat.leb_gt 3 _)) by exact Hg. reflexivity.
  - intros E Hg. destruct (is2_not _ E) as [-> ->]. rewrite (proj2 (Nat.leb_gt 5 _)) by exact Hg. reflexivity.
  - intros E. destruct (is4_not _ E) as [-> ->]. reflexivity.
Qed.
Lemma ncols_shaped n nc A : shaped n nc A -> (0 < n)%nat -> ncols A = nc.
Proof. intros [L F] H. destruct A as [|r A]; cbn in *; [lia|]. now inversion F. Qed.

Lemma derivative2_computes g m f order n nc : present2 m f -> shaped n nc f ->
  computes2 0 (derivative_inplace g 2 f order) m (the_field (derivative_meridional g (A2 (held2 0 m f)) order)).
Proof.
  intros Pf Sf. pose proof (F_shaped m f n nc Sf) as SF. destruct (derivative_few g 2 f order m (le_n 2)) as [D1 [D2 D3]].
  unfold derivative_meridional. assert (LF : length (held2 0 m f) = n) by apply SF. rewrite LF.
  destruct (order_cases order) as [E|[E|E]].
  - rewrite (is2_of _ E). unfold passert. destruct (Nat.leb_spec 3 (g_nlat g)) as [Hg|Hg]; [|apply (computes2_err _ _ _ _ _ (D1 E Hg))].
    destruct (Nat.ltb_spec n 3) as [Hn|Hn].
    + subst order. destruct (derivative_missing2 g f m n nc Pf Sf Hn Hg) as [x Ex]. apply (computes2_err _ _ _ _ _ Ex).
    + destruct (order2_run m f n nc Pf Sf g 2 order E (le_n 2) Hg (fun _ => Hn)) as [SR ER]. cbn [the_field bind].
      replace (mat_of n (ncols (held2 0 m f)) (fun i j => stencil2 n (fun k => mget (held2 0 m f) k j) i / 2 / g_dphi g)) with (mmap (fun x => x / 2 / g_dphi g) (order2_rows m f n 2)).
      * eapply computes2_new. rewrite ER. reflexivity.
      * rewrite (ncols_shaped n nc _ SF) by lia. apply mat_of_entries; [now apply (shaped_mmap (fun x => x / 2 / g_dphi g))|]. intros i j Hi Hj. unfold mmap. rewrite (mget_mmap _ n nc) by assumption.
        rewrite (order2_entry m f n nc Sf) by auto. reflexivity.
  - destruct (is2_not _ E) as [-> ->]. unfold passert. destruct (Nat.leb_spec 5 (g_nlat g)) as [Hg|Hg]; [|apply (computes2_err _ _ _ _ _ (D2 E Hg))].
    destruct (Nat.ltb_spec n 5) as [Hn|Hn].
    + eapply computes2_err. apply (derivative_missing g f m n nc order Pf Sf Hn Hg E 2 (le_n 2)).
    + cbn [the_field bind].
      replace (mat_of n (ncols (held2 0 m f)) (fun i j => stencil4 n (fun k => mget (held2 0 m f) k j) i / 12 / g_dphi g)) with (mmap (fun x => x / 12 / g_dphi g) (order4_rows m f n 2)).
      * eapply computes2_new. rewrite (order4_run m f n nc Pf Sf Hn g 2 order E (le_n 2) Hg). reflexivity.
      * rewrite (ncols_shaped n nc _ SF) by lia. apply mat_of_entries; [apply (shaped_mmap (fun x => x / 12 / g_dphi g)); now apply (s_rows m f n nc Sf Hn)|]. intros i j Hi Hj. unfold mmap. rewrite (mget_mmap _ n nc) by (try assumption; now apply (s_rows m f n nc Sf Hn)).
        rewrite (order4_entry m f n nc Sf Hn) by auto. reflexivity.
  - destruct (is4_not _ E) as [-> ->]. apply (computes2_err _ _ _ _ _ (D3 E)).
Qed.

(** 1D arrays *)
Lemma singles_shaped (f : arr) : shaped (length f) 1 (map (fun p => [p]) f).
Proof. split; [apply map_length|]. apply Forall_map. apply Forall_forall. reflexivity. Qed.
Lemma singles_present (m : vec) f : present m f -> present2 m (map (fun p => [p]) f).
Proof. intros H. apply Forall_map. eapply Forall_impl; [|exact H]. intros p Hp. now constructor. Qed.
Lemma singles_entry (m : vec) f k : (k < length f)%nat -> mget (held2 0 m (map (fun p => [p]) f)) k 0 = nth k (held 0 m f) 0.
Proof. intros H. unfold mget, held2, held. rewrite map_map. rewrite (nth_map_lt _ f _ 0%nat) by exact H. rewrite (nth_map_lt _ f _ 0%nat) by exact H. reflexivity. Qed.
Lemma concat_singles n A : shaped n 1 A -> concat A = tab n (fun i => mget A i 0).
Proof.
  intros [L F]. subst n. induction F as [|r A E F IH]; [reflexivity|]. cbn [concat length]. destruct r as [|x [|y r]]; try discriminate. rewrite IH. unfold tab. cbn [seq map app].
  f_equal. rewrite <- seq_shift, map_map. reflexivity.
Qed.
Lemma computes1_of (p : prog R arr2) m x A : p m = alloc2 A (m ++ x) -> computes 0 (pbind p (fun out => pret (concat out))) m (Ok (concat A)).
Proof.
  intros E. apply (computes_new _ _ _ x). unfold pbind. rewrite E. unfold alloc2. cbn. now rewrite rows_at_concat.
Qed.
Lemma computes1_err_of (p : prog R arr2) m x e : p m = (m ++ x, Err e) -> computes 0 (pbind p (fun out => pret (concat out))) m (Err e).
Proof. intros E. apply (computes_err _ _ _ x). unfold pbind. now rewrite E. Qed.
Lemma stencil2_ext n h h' i : (forall k, (k < n)%nat -> h k = h' k) -> (i < n)%nat -> is_pole n i = false -> stencil2 n h i = stencil2 n h' i.
Proof.
  intros H Hi P. unfold is_pole in P. apply Bool.orb_false_elim in P as [P1 P2]. unfold stencil2. rewrite P1, P2. apply Nat.eqb_neq in P1, P2. now rewrite !H by lia.
Qed.
Lemma stencil4_ext n h h' i : (5 <= n)%nat -> (forall k, (k < n)%nat -> h k = h' k) -> (i < n)%nat -> is_pole n i = false -> stencil4 n h i = stencil4 n h' i.
Proof.
  intros H5 H Hi P. unfold is_pole in P. apply Bool.orb_false_elim in P as [P1 P2]. unfold stencil4. rewrite P1, P2. apply Nat.eqb_neq in P1, P2.
  destruct (Nat.eqb_spec i 1); [now rewrite !H by lia|]. destruct (Nat.eqb_spec i (n - 2)); now rewrite !H by lia.
Qed.
Lemma derivative1_computes g m f order : present m f ->
  computes 0 (derivative1_inplace g f order) m (the_profile (derivative_meridional g (A1 (held 0 m f)) order)).
Proof.
  intros Pf. unfold derivative1_inplace. pose proof (singles_shaped f) as Sf. pose proof (singles_present m f Pf) as Pf2. set (f2 := map (fun p => [p]) f) in *. set (n := length f) in *.
  destruct (derivative_few g 1 f2 order m ltac:(lia)) as [D1 [D2 D3]].
  unfold derivative_meridional. assert (LF : length (held 0 m f) = n) by (unfold held; apply map_length). rewrite LF.
  destruct (order_cases order) as [E|[E|E]].
  - rewrite (is2_of _ E). unfold passert. destruct (Nat.leb_spec 3 (g_nlat g)) as [Hg|Hg]; [|apply (computes1_err_of _ _ _ _ (D1 E Hg))].
    destruct (order2_run m f2 n 1 Pf2 Sf g 1 order E ltac:(lia) Hg ltac:(lia)) as [SR ER]. cbn [the_profile bind].
    rewrite (tab_ext n _ (fun i => mget (mmap (fun x => x / 2 / g_dphi g) (order2_rows m f2 n 1)) i 0)).
    + rewrite <- concat_singles by (now apply (shaped_mmap (fun x => x / 2 / g_dphi g))). eapply computes1_of. exact ER.
    + intros i Hi. unfold mmap. rewrite (mget_mmap _ n 1) by (assumption || lia). rewrite (order2_entry m f2 n 1 Sf) by lia. cbn [Nat.eqb andb].
      destruct (is_pole n i) eqn:P; [reflexivity|]. do 2 f_equal. apply stencil2_ext; auto. intros k Hk. symmetry. now apply singles_entry.
  - destruct (is2_not _ E) as [-> ->]. unfold passert. destruct (Nat.leb_spec 5 (g_nlat g)) as [Hg|Hg]; [|apply (computes1_err_of _ _ _ _ (D2 E Hg))].
    destruct (Nat.ltb_spec n 5) as [Hn|Hn].
    + eapply computes1_err_of. apply (derivative_missing g f2 m n 1 order Pf2 Sf Hn Hg E 1 ltac:(lia)).
    + cbn [the_profile bind]. rewrite (tab_ext n _ (fun i => mget (mmap (fun x => x / 12 / g_dphi g) (order4_rows m f2 n 1)) i 0)).
      * rewrite <- concat_singles by (apply (shaped_mmap (fun x => x / 12 / g_dphi g)); now apply (s_rows m f2 n 1 Sf Hn)). eapply computes1_of. apply (order4_run m f2 n 1 Pf2 Sf Hn g 1 order E ltac:(lia) Hg).
      * intros i Hi. unfold mmap. rewrite (mget_mmap _ n 1) by (try lia; now apply (s_rows m f2 n 1 Sf Hn)). rewrite (order4_entry m f2 n 1 Sf Hn) by lia. cbn [Nat.eqb andb].
        destruct (is_pole n i) eqn:P; [reflexivity|]. do 2 f_equal. apply stencil4_ext; auto. intros k Hk. symmetry. now apply singles_entry.
  - destruct (is4_not _ E) as [-> ->]. apply (computes1_err_of _ _ _ _ (D3 E)).
Qed.

(** ** Writes into slices of one new array *)
Definition start_of (i : option Z) (n : nat) : nat := match i with Some i => slice_pos n i | None => 0%nat end.
Lemma slice_pos_le n k : (slice_pos n k <= n)%nat.
Proof. unfold slice_pos. destruct (Z.ltb_spec k 0); lia. Qed.
Lemma start_le i n : (start_of i n <= n)%nat.
Proof. destruct i; cbn; [apply slice_pos_le|lia]. Qed.
Lemma sl_fits {X} i j (l : list X) : (start_of i (length l) + length (sl i j l) <= length l)%nat.
Proof. rewrite sl_length. pose proof (start_le i (length l)). unfold start_of in *. lia. Qed.
Lemma sl_len_eq {X Y} i j (l : list X) (k : list Y) : length l = length k -> length (sl i j l) = length (sl i j k).
Proof. intros E. now rewrite !sl_length, E. Qed.
Lemma sl_seq i j p n : sl i j (seq p n) = seq (p + start_of i n) (length (sl i j (seq p n))).
Proof.
  apply (nth_ext _ _ 0%nat 0%nat); [now rewrite seq_length|]. intros k Hk. rewrite sl_nth by exact Hk. rewrite (seq_nth (p + start_of i n)) by exact Hk. rewrite seq_length.
  pose proof (sl_fits i j (seq p n)) as Q. rewrite seq_length in Q. unfold start_of in *. rewrite seq_nth by lia. lia.
Qed.
Lemma pokes_at {A} (m l q : list A) a v : (a + length v <= length l)%nat ->
  pokes (seq (length m + a) (length v)) v (m ++ l ++ q) = m ++ upd a v l ++ q.
Proof.
  intros H. unfold upd. set (mid := firstn (length v) (skipn a l)).
  assert (E : l = firstn a l ++ mid ++ skipn (a + length v) l) by (unfold mid; rewrite <- skipn_twice, firstn_skipn, firstn_skipn; reflexivity).
  assert (Lm : length v = length mid) by (unfold mid; rewrite firstn_length, skipn_length; lia).
  replace (m ++ l ++ q) with ((m ++ firstn a l) ++ mid ++ (skipn (a + length v) l ++ q)) by (transitivity (m ++ (firstn a l ++ mid ++ skipn (a + length v) l) ++ q); [rewrite <- !app_assoc; reflexivity|now rewrite <- E]).
  replace (length m + a)%nat with (length (m ++ firstn a l)) by (rewrite app_length, firstn_length; lia).
  rewrite Lm at 1. rewrite pokes_block by exact Lm. rewrite <- !app_assoc. reflexivity.
Qed.
Lemma sl_write {A} (m l q : list A) i j v : length v = length (sl i j l) ->
  pokes (sl i j (seq (length m) (length l))) v (m ++ l ++ q) = m ++ upd (start_of i (length l)) v l ++ q.
Proof.
  intros E. rewrite sl_seq. rewrite (sl_len_eq _ _ _ l) by apply seq_length. rewrite <- E. apply pokes_at. rewrite E. apply sl_fits.
Qed.
Lemma sl_write0 {A} (m l : list A) i j v : length v = length (sl i j l) ->
  pokes (sl i j (seq (length m) (length l))) v (m ++ l) = m ++ upd (start_of i (length l)) v l.
Proof. intros E. pose proof (sl_write m l [] i j v E) as Q. now rewrite !app_nil_r in Q. Qed.
Lemma held_sl {A} (d : A) m l i j : held d (m ++ l) (sl i j (seq (length m) (length l))) = sl i j l.
Proof. unfold held. rewrite <- sl_map. fold (held d (m ++ l) (seq (length m) (length l))). now rewrite held_seq0. Qed.
Lemma sl_tail {X} (l : list X) : sl (Some 1%Z) None l = skipn 1 l.
Proof.
  unfold sl, slice_pos. cbn [Z.ltb Z.compare]. destruct l as [|x l]; [reflexivity|]. replace (Z.to_nat (Z.min 1 (Z.of_nat (length (x :: l))))) with 1%nat by (cbn [length]; lia).
  apply firstn_all2. rewrite skipn_length. lia.
Qed.

(** *** solve_poisson_spectral *)
Lemma poisson_computes g m rhs op_add : present m rhs -> length rhs = length (laplacian_eigenvalues g) ->
  computes (RtoC 0) (poisson_inplace g rhs op_add) m (Ok (solve_poisson_spectral g (held (RtoC 0) m rhs) op_add)).
Proof.
  intros Pr L. unfold poisson_inplace. set (r := held (RtoC 0) m rhs). set (z := map (fun _ => RtoC 0) r).
  assert (Lr : length r = length rhs) by (unfold r, held; apply map_length). assert (Lz : length z = length rhs) by (unfold z; now rewrite map_length).
  apply computes_own. rewrite b_load. rewrite b_alloc. fold r z. rewrite b_load. rewrite held_app by (now apply present_sl).
  replace (held (RtoC 0) m (sl (Some 1%Z) None rhs)) with (skipn 1 r) by (unfold r, held; rewrite <- sl_map, sl_tail; reflexivity).
  rewrite (sl_tail (laplacian_eigenvalues g)). set (w := map2 _ _ _).
  assert (Lw : length w = length (sl (Some 1%Z) None z)) by (unfold w; rewrite map2_length, !skipn_length, sl_tail, skipn_length; lia).
  rewrite b_assign by (rewrite Lw; apply sl_len_eq, seq_length). rewrite sl_write0 by exact Lw.
  assert (E : upd (start_of (Some 1%Z) (length z)) w z = solve_poisson_spectral g r op_add).
  { unfold solve_poisson_spectral. fold w. unfold upd. rewrite sl_tail, skipn_length in Lw. rewrite skipn_all2 by (unfold start_of, slice_pos; cbn [Z.ltb Z.compare]; lia). rewrite app_nil_r. f_equal.
    change (szeros_like r) with z. unfold start_of, slice_pos. cbn [Z.ltb Z.compare]. destruct z as [|x z']; [reflexivity|]. replace (Z.to_nat (Z.min 1 (Z.of_nat (length (x :: z'))))) with 1%nat by (cbn [length]; lia). reflexivity. }
  rewrite E. replace (length (solve_poisson_spectral g r op_add)) with (length z); [reflexivity|].
  rewrite <- E. rewrite upd_length; [reflexivity|]. rewrite Lw. apply sl_fits.
Qed.

(** *** gridpoint_area *)
Lemma nth_mid g phi (m : vec) k : held 0 m phi = g_phi g -> length phi = g_nlat g -> (S k < g_nlat g)%nat ->
  nth k (vscale (/ 2) (vadd (held 0 m (sl (Some 1%Z) None phi)) (held 0 m (sl None (Some (-1)%Z) phi)))) 0 = mid_phi g k.
Proof.
  intros E L Hk. unfold vscale, vadd.
  assert (L1 : length (held 0 m (sl (Some 1%Z) None phi)) = (g_nlat g - 1)%nat) by (unfold held; rewrite map_length, sl_length; unfold slice_pos; cbn [Z.ltb Z.compare]; lia).
  assert (L2 : length (held 0 m (sl None (Some (-1)%Z) phi)) = (g_nlat g - 1)%nat) by (unfold held; rewrite map_length, sl_length; unfold slice_pos; cbn [Z.ltb Z.compare]; lia).
  rewrite (nth_map_lt _ _ _ 0) by (rewrite map2_length; lia). rewrite (Proofs_Base.map2_nth _ _ _ _ 0 0) by lia.
  unfold held in *. rewrite <- !sl_map, E in *. rewrite !sl_nth by lia. unfold mid_phi.
  assert (LP : length (g_phi g) = g_nlat g) by (rewrite <- E, map_length; exact L). rewrite LP. unfold slice_pos. cbn [Z.ltb Z.compare].
  replace (k + Z.to_nat (Z.min 1 (Z.of_nat (g_nlat g))))%nat with (S k) by lia. replace (k + 0)%nat with k by lia. field || reflexivity.
Qed.
Lemma b_imul {B} a v (k : unit -> prog R B) m : length a = length v -> pbind (imul a v) k m = k tt (pokes a (vmul (held 0 m a) v) m).
Proof.
  intros E. unfold imul. rewrite b_assoc. cbv beta. rewrite b_load. apply b_assign. unfold vmul, held. rewrite map2_length, map_length. lia.
Qed.
Lemma b_imul_item {B} l i j x (k : unit -> prog R B) m : item (seq (length m) (length l)) i = Ok (length m + j)%nat -> (j < length l)%nat ->
  pbind (imul_item (seq (length m) (length l)) i x) k (m ++ l) = k tt (m ++ upd j [nth j l 0 * x] l).
Proof.
  intros E Hj. unfold imul_item. rewrite b_assoc, E, b_lift. cbv beta. rewrite b_imul by reflexivity. f_equal.
  pose proof (pokes_at m l [] j [nth j l 0 * x]) as Q. rewrite !app_nil_r in Q. cbn [length seq] in Q. rewrite <- Q by lia. do 2 f_equal. cbn. f_equal. f_equal. rewrite app_nth2 by lia. f_equal. lia.
Qed.
Lemma area_computes g m phi : held 0 m phi = g_phi g -> present m phi -> (2 <= g_nlat g)%nat -> length (g_phi g) = g_nlat g ->
  computes 0 (area_inplace g phi) m (Ok (gridpoint_area g)).
Proof.
  intros E P Hn LP. assert (L : length phi = g_nlat g) by (rewrite <- LP, <- E; unfold held; now rewrite map_length).
  unfold area_inplace. apply computes_own. rewrite !b_load. set (mid := vscale _ _).
  assert (Lm : length mid = (g_nlat g - 1)%nat) by (unfold mid, vscale, vadd, held; rewrite map_length, map2_length, !map_length, !sl_length; unfold slice_pos; cbn [Z.ltb Z.compare]; lia).
  assert (Em : forall k, (S k < g_nlat g)%nat -> nth k mid 0 = mid_phi g k) by (intros k Hk; now apply nth_mid).
  set (c := g_rsphere g * g_rsphere g * g_dlam g). set (n := g_nlat g) in *. rewrite b_alloc. set (l0 := repeat c n). assert (L0 : length l0 = n) by apply repeat_length.
  set (w := vsub _ _).
  assert (Lw : length w = (n - 2)%nat) by (unfold w, vsub; rewrite map2_length, !map_length, !sl_length, Lm; unfold slice_pos; cbn [Z.ltb Z.compare]; lia).
  assert (Ls : forall X (l : list X), length l = n -> length (sl (Some 1%Z) (Some (-1)%Z) l) = (n - 2)%nat) by (intros X l Q; rewrite sl_length, Q; unfold slice_pos; cbn [Z.ltb Z.compare]; lia).
  rewrite b_imul by (rewrite Lw; apply Ls; rewrite seq_length; exact L0). rewrite held_sl.
  assert (Lv : length (vmul (sl (Some 1%Z) (Some (-1)%Z) l0) w) = (n - 2)%nat) by (unfold vmul; rewrite map2_length, Lw, Ls by exact L0; lia).
  rewrite sl_write0 by (rewrite Lv, Ls by exact L0; reflexivity). set (v1 := vmul _ _) in *. set (l1 := upd _ _ _). change (start_of (Some 1%Z) (length l0)) with (slice_pos (length l0) 1) in l1.
  assert (S1 : slice_pos (length l0) 1 = 1%nat) by (rewrite L0; unfold slice_pos; cbn [Z.ltb Z.compare]; lia).
  assert (L1 : length l1 = n) by (unfold l1; rewrite S1, upd_length; lia).
  rewrite (item_north 0 mid) by lia. change (Z.to_nat 0) with 0%nat. rewrite b_lift. replace (length l0) with (length l1) by lia.
  rewrite (b_imul_item l1 0 0) by (try lia; rewrite (item_north 0%nat) by (rewrite ?seq_length; lia); rewrite seq_nth by lia; reflexivity).
  set (l2 := upd 0 _ l1). assert (L2 : length l2 = n) by (unfold l2; rewrite upd_length; cbn [length]; lia).
  rewrite (item_end 0 mid (-1) (n - 2) (n - 1)) by lia. rewrite b_lift. replace (length l1) with (length l2) by lia.
  rewrite (b_imul_item l2 (-1) (n - 1)) by (try lia; rewrite (item_end 0%nat _ (-1) (n - 1) n) by (rewrite ?seq_length; lia); rewrite seq_nth by lia; reflexivity).
  set (l3 := upd (n - 1) _ l2). assert (L3 : length l3 = n) by (unfold l3; rewrite upd_length; cbn [length]; lia).
  assert (EE : l3 = gridpoint_area g).
  { apply (nth_ext _ _ 0 0); [unfold gridpoint_area; now rewrite tab_length|]. intros i Hi. rewrite L3 in Hi. unfold gridpoint_area. fold n. rewrite tab_nth by exact Hi. fold c.
    assert (C0 : forall k, (k < n)%nat -> nth k l0 0 = c) by (intros k Hk; unfold l0; apply nth_repeat_lt || (rewrite (nth_indep _ 0 c) by (rewrite repeat_length; exact Hk); apply nth_repeat)).
    assert (Q1 : forall k, nth k l1 0 = if Nat.leb 1 k && Nat.ltb k (1 + (n - 2)) then nth (k - 1) v1 0 else nth k l0 0) by (intros k; unfold l1; rewrite S1, upd_nth, Lv by lia; reflexivity).
    assert (Q2 : forall k, nth k l2 0 = if Nat.leb 0 k && Nat.ltb k (0 + 1) then nth (k - 0) [nth 0 l1 0 * (1 - sin (nth 0 mid 0))] 0 else nth k l1 0) by (intros k; unfold l2; rewrite upd_nth by (cbn [length]; lia); reflexivity).
    assert (Q3 : forall k, nth k l3 0 = if Nat.leb (n - 1) k && Nat.ltb k (n - 1 + 1) then nth (k - (n - 1)) [nth (n - 1) l2 0 * (1 + sin (nth (n - 2) mid 0))] 0 else nth k l2 0) by (intros k; unfold l3; rewrite upd_nth by (cbn [length]; lia); reflexivity).
    rewrite Q3. destruct (Nat.eqb_spec i 0) as [->|N0].
    - destruct (Nat.leb_spec (n - 1) 0); [lia|]. cbn [andb]. rewrite Q2. cbn [andb Nat.leb Nat.ltb Nat.add Nat.sub nth]. rewrite Q1. cbn [andb Nat.leb]. rewrite C0 by lia. rewrite Em by lia. reflexivity.
    - destruct (Nat.eqb_spec i (n - 1)) as [->|N1].
      + destruct (Nat.leb_spec (n - 1) (n - 1)); [|lia]. destruct (Nat.ltb_spec (n - 1) (n - 1 + 1)); [|lia]. cbn [andb]. rewrite Nat.sub_diag. cbn [nth]. rewrite Q2.
        destruct (Nat.leb_spec 0 (n - 1)); [|lia]. destruct (Nat.ltb_spec (n - 1) (0 + 1)); [lia|]. cbn [andb]. rewrite Q1. destruct (Nat.ltb_spec (n - 1) (1 + (n - 2))); [lia|]. rewrite Bool.andb_false_r.
        rewrite C0 by lia. rewrite Em by lia. reflexivity.
      + destruct (Nat.leb_spec (n - 1) i); [lia|]. cbn [andb]. rewrite Q2. destruct (Nat.leb_spec 0 i); [|lia]. destruct (Nat.ltb_spec i (0 + 1)); [lia|]. cbn [andb]. rewrite Q1.
        destruct (Nat.leb_spec 1 i); [|lia]. destruct (Nat.ltb_spec i (1 + (n - 2))); [|lia]. cbn [andb].
        unfold v1, vmul. rewrite (Proofs_Base.map2_nth _ _ _ _ 0 0) by (rewrite ?Lw, ?Ls by exact L0; lia). rewrite sl_nth by (rewrite Ls by exact L0; lia). fold (slice_pos (length l0) 1). rewrite S1. rewrite C0 by lia. f_equal.
        unfold w, vsub. rewrite (Proofs_Base.map2_nth _ _ _ _ 0 0) by (rewrite map_length, sl_length, Lm; unfold slice_pos; cbn [Z.ltb Z.compare]; lia).
        rewrite <- !sl_map. rewrite !sl_nth by (rewrite sl_length, map_length, Lm; unfold slice_pos; cbn [Z.ltb Z.compare]; lia).
        rewrite map_length, Lm. unfold slice_pos. cbn [Z.ltb Z.compare]. rewrite !(nth_map_lt sin mid _ 0) by lia. rewrite !Em by lia. do 3 f_equal; lia. }
  rewrite <- EE. unfold pret. now rewrite L2, L3.
Qed.

(** *** equivalent_latitude *)
Lemma fill_mask {B} (m l : vec) mask x (k : unit -> prog R B) : length mask = length l ->
  pbind (fill (compress mask (seq (length m) (length l))) x) k (m ++ l) = k tt (m ++ choose mask (map (fun _ => x) l) l).
Proof.
  intros E. rewrite b_fill. f_equal. replace (map (fun _ => x) (compress mask (seq (length m) (length l)))) with (compress mask (map (fun _ => x) l)).
  - pose proof (pokes_compress mask (map (fun _ => x) l) l m []) as Q. rewrite !app_nil_r in Q. apply Q; [exact E|apply map_length].
  - rewrite compress_map. f_equal. rewrite <- (map_map (fun _ => tt) (fun _ => x) l), <- (map_map (fun _ => tt) (fun _ => x) (seq _ _)). f_equal.
    apply (nth_ext _ _ tt tt); [now rewrite !map_length, seq_length|]. intros i _. destruct (nth i _ tt), (nth i _ tt); reflexivity.
Qed.
Lemma choose_map {A} (c : A -> bool) x l : choose (map c l) (map (fun _ => x) l) l = map (fun s => if c s then x else s) l.
Proof. induction l as [|y l IH]; cbn; [reflexivity|]. now rewrite IH. Qed.
Lemma eqlat_computes g m area : computes 0 (eqlat_inplace g area) m (equivalent_latitude g (AArr (held 0 m area))).
Proof.
  unfold eqlat_inplace, equivalent_latitude. set (a := held 0 m area).
  eapply (computes_new 0 _ m). unfold eqlat_inplace. rewrite b_load. fold a. rewrite b_alloc. set (l := map _ a).
  rewrite b_load, held_seq0. rewrite fill_mask by apply map_length. rewrite choose_map. set (l1 := map _ l). replace (length l) with (length l1) by apply map_length.
  rewrite b_load, held_seq0. rewrite fill_mask by apply map_length. rewrite choose_map. set (l2 := map _ l1). replace (length l1) with (length l2) by apply map_length.
  rewrite b_load, held_seq0. replace (map (eqlat1 g) a) with (map (fun s => rad2deg (asin s)) l2) by (unfold l2, l1, l; rewrite !map_map; reflexivity). reflexivity.
Qed.

(** *** GridRegion.lon_mono *)
Lemma take_ok {X} (d : X) l idx : Forall (fun i => (i < length l)%nat) idx -> take l idx = Ok (map (fun i => nth i l d) idx).
Proof.
  intros H. unfold take. induction H as [|i idx Hi H IH]; [reflexivity|]. cbn [res_map map]. rewrite (nth_error_nth' l d Hi). cbn [bind]. rewrite IH. reflexivity.
Qed.
Lemma lon_mono_computes rg m lon : held 0 m lon = g_lon (rg_grid rg) -> Forall (fun i => (i < length (g_lon (rg_grid rg)))%nat) (rg_lon_idx rg) ->
  computes 0 (lon_mono_inplace rg lon) m (region_lon_mono rg).
Proof.
  intros E H. assert (L : length lon = length (g_lon (rg_grid rg))) by (rewrite <- E; unfold held; now rewrite map_length).
  assert (V : held 0 m (map (fun i => nth i lon 0%nat) (rg_lon_idx rg)) = region_lon rg).
  { unfold region_lon, take_idx, held. rewrite map_map. apply map_ext_in. intros i Hi. rewrite Forall_forall in H. rewrite <- E. unfold held. rewrite (nth_map_lt _ lon _ 0%nat) by (rewrite L; now apply H). reflexivity. }
  assert (P : forall r : vec * res arr, lon_mono_inplace rg lon m = r -> lon_mono_inplace rg lon m = r) by auto.
  unfold lon_mono_inplace in P at 1. rewrite (take_ok 0%nat) in P by (now rewrite L). rewrite b_lift, b_load, V, b_alloc, b_load, held_seq0 in P. set (v := region_lon rg) in *.
  unfold region_lon_mono. fold v. set (jump := filter _ _) in *.
  destruct jump as [|j [|j' js]] eqn:EJ; unfold check in P; cbn [length Nat.leb] in P; cbv zeta in P.
  - rewrite !b_ret in P. apply computes_own. now apply P.
  - rewrite b_ret in P. cbv beta in P. repeat rewrite b_assoc in P. rewrite b_load, held_sl in P. cbv beta in P.
    assert (Hj : (S j < length v)%nat).
    { assert (In j jump) as Hj by (rewrite EJ; now left). unfold jump in Hj. apply filter_In in Hj as [Hj _]. apply in_seq in Hj. unfold vdiff in Hj. rewrite map_length, pairs_length in Hj. lia. }
    assert (ES : sl None (Some (Z.of_nat j + 1)%Z) v = firstn (S j) v).
    { unfold sl. replace (Z.of_nat j + 1)%Z with (Z.of_nat (S j)) by lia. rewrite slice_pos_nat. rewrite Nat.min_l by lia. rewrite Nat.sub_0_r. reflexivity. }
    rewrite b_assign in P by (rewrite map_length; apply sl_len_eq, seq_length). rewrite sl_write0 in P by apply map_length. rewrite ES in P. cbn [start_of] in P.
    set (w := map (fun x => x - 360) (firstn (S j) v)) in *. assert (Lw : length w = S j) by (unfold w; rewrite map_length, firstn_length; lia).
    assert (EU : upd 0 w v = w ++ skipn (S j) v) by (unfold upd; rewrite Lw; reflexivity). rewrite EU in P.
    apply computes_own. replace (length (w ++ skipn (S j) v)) with (length v) by (rewrite app_length, skipn_length; lia). now apply P.
  - rewrite b_raise in P. eapply computes_err. now apply P.
Qed.

(** *** GridRegion.mask *)
Lemma nth_poke {A} (d x : A) : forall m p q, nth q (poke p x m) d = if Nat.eqb q p && Nat.ltb p (length m) then x else nth q m d.
Proof.
  induction m as [|y m IH]; intros p q; [change (Nat.ltb p (length (@nil A))) with false; rewrite Bool.andb_false_r; now destruct p|]. destruct p, q; cbn [poke nth length]; try reflexivity. rewrite IH. reflexivity.
Qed.
Lemma nth_fill {A} (d x : A) a : forall m q, (q < length m)%nat -> nth q (pokes a (map (fun _ => x) a) m) d = if existsb (Nat.eqb q) a then x else nth q m d.
Proof.
  induction a as [|p a IH]; intros m q H; [reflexivity|]. cbn [map pokes existsb]. rewrite IH by (now rewrite poke_length). rewrite nth_poke.
  destruct (Nat.eqb_spec q p) as [->|N]; [rewrite (proj2 (Nat.ltb_lt p (length m)) H); cbn; now destruct (existsb _ a)|reflexivity].
Qed.
Lemma pokes_prefix {A} a : forall (v m l : list A), Forall (fun q => (length m <= q)%nat) a -> exists l', length l' = length l /\ pokes a v (m ++ l) = m ++ l'.
Proof.
  induction a as [|p a IH]; intros [|x v] m l H; cbn [pokes]; eauto. inversion H as [|? ? Hp Ha]; subst.
  assert (E : poke p x (m ++ l) = m ++ poke (p - length m) x l).
  { clear -Hp. revert p Hp. induction m as [|y m IHm]; intros p Hp; cbn [app length Nat.sub] in *; [now rewrite Nat.sub_0_r|]. destruct p; [lia|]. cbn [poke]. rewrite IHm by lia. reflexivity. }
  rewrite E. destruct (IH v m (poke (p - length m) x l) Ha) as [l' [L El]]. exists l'. split; [now rewrite L, poke_length|exact El].
Qed.
Definition cell (p nc i j : nat) : nat := (p + i * nc + j)%nat.
Lemma rows_at_repeat {A} (r : list A) n : forall p, rows_at p (repeat r n) = tab n (fun i => seq (p + i * length r) (length r)).
Proof.
  induction n as [|n IH]; intros p; [reflexivity|]. cbn [repeat rows_at]. rewrite IH. unfold tab. cbn [seq map]. f_equal; [f_equal; lia|]. rewrite <- seq_shift, map_map. apply map_ext. intros i. f_equal. lia.
Qed.
Lemma cell_inj p nc i j i' j' : (j < nc)%nat -> (j' < nc)%nat -> cell p nc i j = cell p nc i' j' -> i = i' /\ j = j'.
Proof. unfold cell. intros H H' E. assert (i = i') by nia. subst. split; [reflexivity|nia]. Qed.
Lemma mask_computes rg m : Forall (fun i => (i < g_nlat (rg_grid rg))%nat) (rg_lat_idx rg) -> Forall (fun i => (i < g_nlon (rg_grid rg))%nat) (rg_lon_idx rg) ->
  computes2 false (mask_inplace rg) m (Ok (region_mask rg)).
Proof.
  intros HI HJ. set (nr := g_nlat (rg_grid rg)) in *. set (nc := g_nlon (rg_grid rg)) in *.
  assert (P : forall r : list bool * res arr2, mask_inplace rg m = r -> mask_inplace rg m = r) by auto. unfold mask_inplace in P at 1. fold nr nc in P. rewrite b_alloc2 in P.
  rewrite rows_at_repeat, repeat_length in P. set (rows := tab nr (fun i => seq (length m + i * nc) nc)) in *. set (z := concat (repeat (repeat false nc) nr)) in *.
  assert (Lz : length z = (nr * nc)%nat) by (unfold z; clear; induction nr; cbn; [reflexivity|]; rewrite app_length, repeat_length; lia).
  assert (Lr : length rows = nr) by apply tab_length.
  rewrite (take_ok []) in P by (now rewrite Lr). rewrite b_lift in P.
  assert (EC : res_map (fun r => take r (rg_lon_idx rg)) (map (fun i => nth i rows []) (rg_lat_idx rg)) = Ok (map (fun i => map (fun j => cell (length m) nc i j) (rg_lon_idx rg)) (rg_lat_idx rg))).
  { clear P. induction HI as [|i idx Hi HI IH]; [reflexivity|]. cbn [map res_map]. unfold rows at 1. rewrite tab_nth by exact Hi. rewrite (take_ok 0%nat) by (now rewrite seq_length). cbn [bind]. rewrite IH. cbn [bind]. do 2 f_equal.
    apply map_ext_in. intros j Hj. rewrite Forall_forall in HJ. rewrite seq_nth by (now apply HJ). unfold cell. lia. }
  rewrite EC, b_lift, b_fill in P. set (a := concat _) in P. unfold pret in P.
  assert (Ha : forall q, In q a <-> exists i j, In i (rg_lat_idx rg) /\ In j (rg_lon_idx rg) /\ q = cell (length m) nc i j).
  { intros q. unfold a. rewrite in_concat. split.
    - intros [r [Hr Hq]]. apply in_map_iff in Hr as [i [<- Hi]]. apply in_map_iff in Hq as [j [<- Hj]]. eauto.
    - intros [i [j [Hi [Hj ->]]]]. eexists. split; [apply in_map_iff; exists i; split; [reflexivity|exact Hi]|]. apply in_map_iff. eauto. }
  destruct (pokes_prefix a (map (fun _ => true) a) m z) as [l' [Ll El]].
  { apply Forall_forall. intros q Hq. apply Ha in Hq as [i [j [_ [_ ->]]]]. unfold cell. lia. }
  exists l'. rewrite (P _ eq_refl). cbn [fst snd]. split; [exact El|]. exists rows. split; [reflexivity|].
  assert (Vq : forall i j, (i < nr)%nat -> (j < nc)%nat -> nth (cell (length m) nc i j) (m ++ l') false = existsb (Nat.eqb i) (rg_lat_idx rg) && existsb (Nat.eqb j) (rg_lon_idx rg)).
  { intros i j Hi Hj. rewrite <- El. assert (Q : (cell (length m) nc i j < length (m ++ z))%nat) by (rewrite app_length, Lz; unfold cell; nia). rewrite nth_fill by exact Q.
    assert (Z0 : nth (cell (length m) nc i j) (m ++ z) false = false).
    { rewrite app_nth2 by (unfold cell; lia). assert (AZ : Forall (fun b => b = false) z) by (unfold z; apply Forall_concat, Forall_forall; intros r Hr; apply repeat_spec in Hr as ->; apply Forall_forall; intros b Hb; now apply repeat_spec in Hb).
      destruct (nth_in_or_default (cell (length m) nc i j - length m) z false) as [I|D]; [rewrite Forall_forall in AZ; now apply AZ|exact D]. }
    rewrite Z0. rewrite Forall_forall in HI, HJ.
    destruct (existsb (Nat.eqb (cell (length m) nc i j)) a) eqn:Ex; symmetry.
    - apply existsb_exists in Ex as [q [Hq Eq]]. apply Nat.eqb_eq in Eq. apply Ha in Hq as [i' [j' [Hi' [Hj' ->]]]]. apply cell_inj in Eq as [-> ->]; auto. apply andb_true_intro. split; apply existsb_exists; eexists; split; eauto; apply Nat.eqb_refl.
    - apply Bool.not_true_iff_false. intros T. apply andb_prop in T as [T1 T2]. apply existsb_exists in T1 as [i' [Hi' Ei]]. apply existsb_exists in T2 as [j' [Hj' Ej]]. apply Nat.eqb_eq in Ei, Ej. subst i' j'.
      apply Bool.not_true_iff_false in Ex. apply Ex. apply existsb_exists. exists (cell (length m) nc i j). split; [apply Ha; eauto|apply Nat.eqb_refl]. }
  assert (CC : concat rows = seq (length m) (nr * nc)).
  { unfold rows. pose proof (rows_at_repeat (repeat false nc) nr (length m)) as Q. rewrite repeat_length in Q. rewrite <- Q. rewrite rows_at_concat. fold z. now rewrite Lz. }
  split; [|split; [rewrite CC; apply seq_NoDup|rewrite CC; apply Forall_forall; intros q Hq; apply in_seq in Hq; rewrite app_length; lia]].
  unfold region_mask. fold nr nc. unfold rows, held2. unfold tab at 1 2. rewrite map_map. fold (tab nr (fun i => map (fun p => nth p (m ++ l') false) (seq (length m + i * nc) nc))). fold (tab nr (fun i => tab nc (fun j => existsb (Nat.eqb i) (rg_lat_idx rg) && existsb (Nat.eqb j) (rg_lon_idx rg)))). apply tab_ext. intros i Hi. unfold held. apply (nth_ext _ _ false false); [now rewrite map_length, seq_length, tab_length|].
  intros j Hj. rewrite map_length, seq_length in Hj. rewrite (nth_map_lt _ _ _ 0%nat) by (now rewrite seq_length). rewrite tab_nth by exact Hj. rewrite seq_nth by exact Hj. now apply Vq.
Qed.

(** *** _restrict_fourier_zonal *)
Lemma pokes_app {A} a b (v w m : list A) : length a = length v -> pokes (a ++ b) (v ++ w) m = pokes b w (pokes a v m).
Proof. revert v m. induction a as [|p a IH]; intros [|x v] m E; cbn in *; try lia; auto. Qed.
Lemma rows_clear {A} (x : A) i j : forall L p q,
  pokes (concat (map (sl i j) (rows_at (length p) L))) (map (fun _ => x) (concat (map (sl i j) (rows_at (length p) L)))) (p ++ concat L ++ q)
  = p ++ concat (map (fun r => upd (start_of i (length r)) (map (fun _ => x) (sl i j r)) r) L) ++ q.
Proof.
  induction L as [|r L IH]; intros p q; [reflexivity|]. cbn [rows_at map concat]. rewrite map_app. rewrite pokes_app by (now rewrite map_length). rewrite <- app_assoc.
  assert (EL : map (fun _ : nat => x) (sl i j (seq (length p) (length r))) = map (fun _ => x) (sl i j r)).
  { apply (nth_ext _ _ x x); [rewrite !map_length; apply sl_len_eq, seq_length|]. intros k Hk. rewrite map_length in Hk. rewrite (nth_map_lt _ _ _ 0%nat) by exact Hk.
    destruct (sl i j r) as [|y t] eqn:Es; [cbn; now destruct k|]. rewrite <- Es. rewrite (nth_map_lt _ _ _ y) by (rewrite (sl_len_eq _ _ _ (seq (length p) (length r))) by (now rewrite seq_length); exact Hk). reflexivity. }
  rewrite EL. rewrite sl_write by (now rewrite map_length). set (r' := upd _ _ r). assert (Lr : length r' = length r) by (unfold r'; apply upd_length; rewrite map_length; apply sl_fits).
  replace (length p + length r)%nat with (length (p ++ r')) by (rewrite app_length; lia). rewrite app_assoc. rewrite IH. rewrite <- !app_assoc. reflexivity.
Qed.
Lemma upd_clear_to a (X : list cplx) : upd (start_of None (length X)) (map (fun _ : cplx => ((0, 0) : cplx)) (sl None (Some a) X)) X = clear_to a X.
Proof.
  pose proof (sl_fits None (Some a) X) as F. cbn [start_of] in *. pose proof (slice_pos_le (length X) a) as Q. assert (LS : length (sl None (Some a) X) = slice_pos (length X) a) by (rewrite sl_length; lia).
  apply (nth_ext _ _ (0, 0) (0, 0)).
  - unfold clear_to. rewrite tab_length. apply upd_length. rewrite map_length. exact F.
  - intros k Hk. rewrite upd_length in Hk by (rewrite map_length; exact F). unfold clear_to. rewrite tab_nth by exact Hk. rewrite upd_nth by (rewrite map_length; exact F). rewrite map_length, LS. cbn [Nat.leb andb Nat.add].
    destruct (Nat.ltb_spec k (slice_pos (length X) a)); [|reflexivity]. match goal with |- ?L = _ => change L with (nth (k - 0) (map (fun _ : cplx => ((0, 0) : cplx)) (sl None (Some a) X)) (0, 0)) end. rewrite (nth_map_lt (fun _ : cplx => ((0, 0) : cplx)) _ _ (0, 0)) by (rewrite LS; lia). reflexivity.
Qed.
Lemma upd_clear_from b (X : list cplx) : upd (start_of (Some b) (length X)) (map (fun _ : cplx => ((0, 0) : cplx)) (sl (Some b) None X)) X = clear_from b X.
Proof.
  pose proof (sl_fits (Some b) None X) as F. cbn [start_of] in *. pose proof (slice_pos_le (length X) b) as Q. assert (LS : length (sl (Some b) None X) = (length X - slice_pos (length X) b)%nat) by (rewrite sl_length; lia).
  apply (nth_ext _ _ (0, 0) (0, 0)).
  - unfold clear_from. rewrite tab_length. apply upd_length. rewrite map_length. exact F.
  - intros k Hk. rewrite upd_length in Hk by (rewrite map_length; exact F). unfold clear_from. rewrite tab_nth by exact Hk. rewrite upd_nth by (rewrite map_length; exact F). rewrite map_length, LS.
    assert (Hk' : (k < length X)%nat) by exact Hk. assert (Q' : (slice_pos (length X) b <= length X)%nat) by exact Q. destruct (Nat.leb_spec (slice_pos (length X) b) k); destruct (Nat.ltb_spec k (slice_pos (length X) b)); try lia; cbn [andb]; [|reflexivity].
    destruct (Nat.ltb_spec k (slice_pos (length X) b + (length X - slice_pos (length X) b))); [|lia]. match goal with |- ?L = _ => change L with (nth (k - slice_pos (length X) b) (map (fun _ : cplx => ((0, 0) : cplx)) (sl (Some b) None X)) (0, 0)) end. rewrite (nth_map_lt (fun _ : cplx => ((0, 0) : cplx)) _ _ (0, 0)) by (rewrite LS; lia). reflexivity.
Qed.
Lemma restrict_computes m field kmin kmax :
  computes2 ((0, 0) : cplx) (restrict_inplace field kmin kmax) m (do rows <- res_map rfft field; Ok (map (fun X => clear_from (kmax + 1) (clear_to kmin X)) rows)).
Proof.
  unfold computes2, restrict_inplace. destruct (res_map rfft field) as [L|e]; cbn [bind].
  2:{ exists []. rewrite app_nil_r. split; reflexivity. }
  assert (D : forall X : list cplx, length (clear_to kmin X) = length X) by (intros X; unfold clear_to; now rewrite tab_length).
  assert (D' : forall X : list cplx, length (clear_from (kmax + 1) X) = length X) by (intros X; unfold clear_from; now rewrite tab_length).
  set (L1 := map (clear_to kmin) L). set (L2 := map (clear_from (kmax + 1)) L1).
  assert (S1 : rows_at (length m) L = rows_at (length m) L1) by (apply rows_at_same; unfold L1; clear -D; induction L; cbn [map]; constructor; auto).
  assert (S2 : rows_at (length m) L1 = rows_at (length m) L2) by (apply rows_at_same; unfold L2; clear -D'; induction L1; cbn [map]; constructor; auto).
  assert (W1 : fill (concat (map (sl None (Some kmin)) (rows_at (length m) L))) ((0, 0) : cplx) (m ++ concat L) = (m ++ concat L1, Ok tt)).
  { unfold fill, assign. rewrite map_length, Nat.eqb_refl. f_equal. pose proof (rows_clear ((0, 0) : cplx) None (Some kmin) L m []) as Q. rewrite !app_nil_r in Q. etransitivity; [exact Q|].
    unfold L1. do 2 f_equal. apply map_ext. intros X. apply upd_clear_to. }
  assert (W2 : fill (concat (map (sl (Some (kmax + 1)%Z) None) (rows_at (length m) L))) ((0, 0) : cplx) (m ++ concat L1) = (m ++ concat L2, Ok tt)).
  { rewrite S1. unfold fill, assign. rewrite map_length, Nat.eqb_refl. f_equal. pose proof (rows_clear ((0, 0) : cplx) (Some (kmax + 1)%Z) None L1 m []) as Q. rewrite !app_nil_r in Q. etransitivity; [exact Q|].
    unfold L2. do 2 f_equal. apply map_ext. intros X. apply upd_clear_from. }
  match goal with |- exists new, fst ?p = _ /\ _ => assert (R : p = (m ++ concat L2, Ok (rows_at (length m) L2))) end.
  { unfold pbind, lift, alloc2. etransitivity; [|rewrite <- S2, <- S1; reflexivity]. cbv beta iota.
    match goal with |- context[fill ?a ?x ?mm] => replace (fill a x mm) with (m ++ concat L1, @Ok unit tt) by (symmetry; exact W1) end. cbv beta iota.
    match goal with |- context[fill ?a ?x ?mm] => replace (fill a x mm) with (m ++ concat L2, @Ok unit tt) by (symmetry; exact W2) end. reflexivity. }
  rewrite R. exists (concat L2). split; [reflexivity|]. exists (rows_at (length m) L2). split; [reflexivity|]. split; [rewrite held2_rows0; unfold L2, L1; now rewrite map_map|].
  rewrite rows_at_concat. split; [apply seq_NoDup|]. apply Forall_forall. intros q Hq. apply in_seq in Hq. rewrite app_length. lia.
Qed.

(** *** stationary_wavenumber *)
Lemma pokes_other {A} (d : A) a : forall v m q, ~ In q a -> nth q (pokes a v m) d = nth q m d.
Proof.
  induction a as [|p a IH]; intros [|x v] m q H; cbn [pokes]; auto. rewrite IH by (intros I; apply H; now right). rewrite nth_poke. destruct (Nat.eqb_spec q p) as [->|]; [exfalso; apply H; now left|reflexivity].
Qed.
Lemma compress_in {X} mask : forall (l : list X) x, In x (compress mask l) -> In x l.
Proof. induction mask as [|b mask IH]; intros [|y l] x H; cbn in H; try contradiction. destruct b; cbn in H; [destruct H as [->|H]; [now left|right; now apply IH]|right; now apply IH]. Qed.
Lemma held_masked {A} (d : A) mask : forall a v m, NoDup a -> present m a -> length mask = length a -> length v = length a ->
  held d (pokes (compress mask a) (compress mask v) m) a = choose mask v (held d m a).
Proof.
  induction mask as [|b mask IH]; intros [|p a] [|x v] m N P L L'; cbn in L, L'; try lia; [reflexivity|].
  inversion N as [|? ? Np Na]; subst. inversion P as [|? ? Pp Pa]; subst. cbn [compress held map choose]. fold (held d m a).
  assert (NC : ~ In p (compress mask a)) by (intros I; apply Np; now apply compress_in in I).
  destruct b; cbn [pokes]; f_equal.
  - rewrite pokes_other by exact NC. rewrite nth_poke, Nat.eqb_refl, (proj2 (Nat.ltb_lt p (length m)) Pp). reflexivity.
  - fold (held d (pokes (compress mask a) (compress mask v) (poke p x m)) a). rewrite IH by (auto; unfold present; rewrite poke_length; exact Pa). f_equal. apply map_ext_in. intros q Hq. rewrite nth_poke.
    destruct (Nat.eqb_spec q p) as [->|]; [contradiction|reflexivity].
  - now rewrite pokes_other by exact NC.
  - fold (held d (pokes (compress mask a) (compress mask v) m) a). now rewrite IH by (auto; lia).
Qed.
Lemma ks2_run m ks2 u A U min_u : NoDup ks2 -> present m ks2 -> held NaN m ks2 = map Fin A -> held NaN m u = map Fin U ->
  exists m', keeps_others NaN ks2 m m' /\ ks2_inplace ks2 u min_u m = (m', if Nat.eqb (length U) (length A) then Ok ks2 else Err IndexError)
    /\ (length U = length A -> held NaN m' ks2 = map2 (ks2_at min_u) A U).
Proof.
  intros N P EA EU. assert (LA : length ks2 = length A) by (rewrite <- (map_length Fin A), <- EA; unfold held; now rewrite map_length).
  unfold ks2_inplace. rewrite b_load, EU. set (small := map _ (map Fin U)).
  assert (Ls : length small = length U) by (unfold small; now rewrite !map_length). rewrite Ls, LA.
  destruct (Nat.eqb_spec (length U) (length A)) as [E|E]; unfold check.
  2:{ rewrite b_raise. exists m. split; [split; auto|]. split; [reflexivity|]. intros F. contradiction. }
  rewrite b_ret, b_load, held_compress, EA. set (large := map negb small). assert (Ll : length large = length A) by (unfold large; rewrite map_length; lia).
  rewrite compress_map2 by (rewrite map_length; lia). set (D := map2 ediv (map Fin A) (map Fin U)). assert (LD : length D = length A) by (unfold D; rewrite map2_length, !map_length; lia).
  rewrite b_assign by (apply compress_length_eq; lia). rewrite b_load. rewrite held_masked by (auto; lia). rewrite EA. set (K := choose large D (map Fin A)).
  assert (LK : length K = length A) by (unfold K; rewrite choose_length, map_length; rewrite ?map_length; lia).
  set (inf := map2 _ small K). assert (Li : length inf = length A) by (unfold inf; rewrite map2_length; lia). set (m1 := pokes _ _ m).
  assert (H1 : held NaN m1 ks2 = K) by (unfold m1; rewrite held_masked by (auto; lia); now rewrite EA).
  rewrite b_load, held_compress, H1. rewrite compress_map. rewrite b_assign by (apply compress_length_eq; rewrite map_length; lia). unfold pret.
  eexists. split; [|split; [reflexivity|]].
  - split; [unfold m1; now rewrite !pokes_length|]. intros q Hq. unfold m1. rewrite !pokes_other; [reflexivity| |]; intros I; apply Hq; now apply compress_in in I.
  - intros _. rewrite held_masked; [|exact N|unfold present, m1; rewrite pokes_length; exact P|lia|rewrite map_length; lia]. rewrite H1.
    apply (nth_ext _ _ NaN NaN); [rewrite choose_length, map2_length; rewrite ?map_length; lia|]. intros i Hi. rewrite choose_length in Hi by (rewrite ?map_length; lia).
    rewrite choose_nth by (rewrite ?map_length; lia). rewrite (Proofs_Base.map2_nth _ _ _ _ 0 0) by lia.
    assert (Es : nth i small false = isclose_tol min_u (/ 100000) (nth i U 0) 0) by (unfold small; rewrite map_map; rewrite (nth_map_lt _ _ _ 0) by lia; reflexivity).
    assert (El : nth i large false = negb (nth i small false)) by (unfold large; rewrite (nth_map_lt _ _ _ false) by lia; reflexivity).
    assert (EK : nth i K NaN = if nth i small false then Fin (nth i A 0) else ediv (Fin (nth i A 0)) (Fin (nth i U 0))).
    { unfold K. rewrite choose_nth by (rewrite ?map_length; lia). rewrite El. rewrite (nth_map_lt Fin A _ 0) by lia. unfold D. rewrite (Proofs_Base.map2_nth _ _ _ _ NaN NaN) by (rewrite map_length; lia). rewrite !(nth_map_lt Fin _ _ 0) by lia. now destruct (nth i small false). }
    unfold inf. rewrite (Proofs_Base.map2_nth _ _ _ _ false NaN) by lia. rewrite (nth_map_lt _ K _ NaN) by lia. rewrite EK, Es. unfold ks2_at. destruct (isclose_tol _ _ _ _); reflexivity.
Qed.

(** *** quad_meridional, sptrapz *)
Definition ent {X} (d : X) (A : list (list X)) (i j : nat) : X := nth j (nth i A []) d.
Lemma ent_map2 {X Y Z} (h : X -> Y -> Z) dx dy dz nr nc A B i j : shaped nr nc A -> shaped nr nc B -> (i < nr)%nat -> (j < nc)%nat ->
  ent dz (map2m h A B) i j = h (ent dx A i j) (ent dy B i j).
Proof.
  intros [LA FA] [LB FB] Hi Hj. unfold ent, map2m. rewrite (Proofs_Base.map2_nth _ _ _ _ [] []) by lia. rewrite Forall_forall in FA, FB.
  rewrite (Proofs_Base.map2_nth _ _ _ _ dx dy) by (rewrite ?FA, ?FB by (apply nth_In; lia); exact Hj). reflexivity.
Qed.
Lemma ent_map {X Y} (h : X -> Y) dx dy nr nc A i j : shaped nr nc A -> (i < nr)%nat -> (j < nc)%nat -> ent dy (map (map h) A) i j = h (ent dx A i j).
Proof.
  intros [LA FA] Hi Hj. unfold ent. rewrite (nth_map_lt (map h) A i []) by lia. rewrite Forall_forall in FA. rewrite (nth_map_lt h _ j dx) by (rewrite FA by (apply nth_In; lia); exact Hj). reflexivity.
Qed.
Definition choose2 {X} (M : list (list bool)) (V A : list (list X)) : list (list X) := map2 (fun mv a => choose (fst mv) (snd mv) a) (combine M V) A.
Lemma choose_app {X} m1 m2 (v1 v2 a1 a2 : list X) : length m1 = length a1 -> length v1 = length a1 -> choose (m1 ++ m2) (v1 ++ v2) (a1 ++ a2) = choose m1 v1 a1 ++ choose m2 v2 a2.
Proof. revert v1 a1. induction m1 as [|b m1 IH]; intros [|x v1] [|y a1] L L'; cbn in *; try lia; [reflexivity|]. f_equal. apply IH; lia. Qed.
Lemma choose2_concat {X} nr nc (M : list (list bool)) (V A : list (list X)) : shaped nr nc M -> shaped nr nc V -> shaped nr nc A ->
  choose (concat M) (concat V) (concat A) = concat (choose2 M V A).
Proof.
  revert M V A. induction nr as [|nr IH]; intros M V A [LM FM] [LV FV] [LA FA]; destruct M, V, A; try discriminate; [reflexivity|].
  inversion FM; inversion FV; inversion FA; subst. cbn [concat]. rewrite choose_app by lia. unfold choose2. cbn [combine map2 concat fst snd]. f_equal. apply IH; split; auto.
Qed.
Lemma choose2_shaped {X} nr nc (M : list (list bool)) (V A : list (list X)) : shaped nr nc M -> shaped nr nc V -> shaped nr nc A -> shaped nr nc (choose2 M V A).
Proof.
  revert M V A. induction nr as [|nr IH]; intros M V A [LM FM] [LV FV] [LA FA]; destruct M, V, A; try discriminate; [split; constructor|].
  inversion FM; inversion FV; inversion FA; subst. destruct (IH M V A) as [L F]; [split; auto|split; auto|split; auto|]. unfold choose2 in *. cbn [combine map2]. split; [cbn [length]; now rewrite L|].
  constructor; [|exact F]. cbn [fst snd]. rewrite choose_length; lia.
Qed.
Lemma choose2_ent {X} (d : X) nr nc (M : list (list bool)) (V A : list (list X)) i j : shaped nr nc M -> shaped nr nc V -> shaped nr nc A -> (i < nr)%nat -> (j < nc)%nat ->
  ent d (choose2 M V A) i j = if ent false M i j then ent d V i j else ent d A i j.
Proof.
  intros [LM FM] [LV FV] [LA FA] Hi Hj. rewrite Forall_forall in FM, FV, FA. unfold ent, choose2. rewrite (Proofs_Base.map2_nth _ _ _ _ ([], []) []) by (rewrite ?combine_length; lia).
  rewrite combine_nth by lia. cbn [fst snd]. rewrite choose_nth; rewrite ?FM, ?FV, ?FA by (apply nth_In; lia); auto.
Qed.
Lemma concat_map2m {X Y Z} (h : X -> Y -> Z) nr nc A B : shaped nr nc A -> shaped nr nc B -> map2 h (concat A) (concat B) = concat (map2m h A B).
Proof.
  revert A B. induction nr as [|nr IH]; intros A B [LA FA] [LB FB]; destruct A, B; try discriminate; [reflexivity|]. inversion FA; inversion FB; subst. cbn [concat map2m map2].
  rewrite <- (IH A B) by (split; auto). assert (E : length l = length l0) by lia. clear -E. revert l0 E. induction l as [|x l IH]; intros [|y k] E; cbn in *; try lia; [reflexivity|]. f_equal. apply IH. lia.
Qed.
Lemma shaped_concat {X} nr nc (A : list (list X)) : shaped nr nc A -> length (concat A) = (nr * nc)%nat.
Proof. revert A. induction nr as [|nr IH]; intros A [LA FA]; destruct A; try discriminate; [reflexivity|]. inversion FA; subst. cbn [concat]. rewrite app_length, IH by (split; auto). lia. Qed.
(** masked assignment to a new 2D array *)
Lemma masked_write {B} nr nc (p : vec) M V A (k : unit -> prog R B) : shaped nr nc M -> shaped nr nc V -> shaped nr nc A ->
  pbind (assign (compress2 M (rows_at (length p) A)) (compress2 M V)) k (p ++ concat A) = k tt (p ++ concat (choose2 M V A)).
Proof.
  intros SM SV SA. unfold compress2. rewrite rows_at_concat.
  rewrite b_assign by (apply compress_length_eq; rewrite seq_length, !(shaped_concat nr nc) by assumption; reflexivity). f_equal.
  pose proof (pokes_compress (concat M) (concat V) (concat A) p []) as Q. rewrite !app_nil_r in Q. rewrite Q by (rewrite !(shaped_concat nr nc) by assumption; reflexivity). f_equal. now apply (choose2_concat nr nc).
Qed.
Lemma compress2_map2 {X Y Z} (h : X -> Y -> Z) nr nc M A B : shaped nr nc M -> shaped nr nc A -> shaped nr nc B -> map2 h (compress2 M A) (compress2 M B) = compress2 M (map2m h A B).
Proof.
  intros SM SA SB. unfold compress2. rewrite compress_map2 by (rewrite !(shaped_concat nr nc) by assumption; reflexivity). f_equal. now apply (concat_map2m h nr nc).
Qed.
Lemma held_compress2 {X} (d : X) m M a : held d m (compress2 M a) = compress2 M (held2 d m a).
Proof. unfold compress2, held. rewrite compress_map. f_equal. unfold held2. rewrite concat_map. reflexivity. Qed.

Section Trapz.
Variables (g : grid) (n nc : nat) (X Y Z : mat).
Hypotheses (SX : shaped n nc X) (SY : shaped n nc Y) (SZ : shaped n nc Z).
Let js {T} : list T -> list T := sl None (Some (-1)%Z).
Let je {T} : list T -> list T := sl (Some 1%Z) None.
Lemma js_len {T} (l : list T) : length (js l) = (length l - 1)%nat.
Proof. unfold js. rewrite sl_length. unfold slice_pos. cbn [Z.ltb Z.compare]. lia. Qed.
Lemma je_len {T} (l : list T) : length (je l) = (length l - 1)%nat.
Proof. unfold je. rewrite sl_length. unfold slice_pos. cbn [Z.ltb Z.compare]. lia. Qed.
Lemma js_shaped {T} (A : list (list T)) : shaped n nc A -> shaped (n - 1) nc (js A).
Proof. intros S. pose proof (shaped_sl n nc A None (Some (-1)%Z) S) as Q. fold (@js (list T)) in Q. rewrite js_len in Q. destruct S as [L _]. now rewrite L in Q. Qed.
Lemma je_shaped {T} (A : list (list T)) : shaped n nc A -> shaped (n - 1) nc (je A).
Proof. intros S. pose proof (shaped_sl n nc A (Some 1%Z) None S) as Q. fold (@je (list T)) in Q. rewrite je_len in Q. destruct S as [L _]. now rewrite L in Q. Qed.
Lemma js_ent {T} (d : T) A i j : shaped n nc A -> (i < n - 1)%nat -> ent d (js A) i j = ent d A i j.
Proof. intros [L _] H. unfold ent, js. rewrite sl_nth by (fold (@js (list T)); rewrite js_len; lia). do 2 f_equal. lia. Qed.
Lemma je_ent {T} (d : T) A i j : shaped n nc A -> (i < n - 1)%nat -> ent d (je A) i j = ent d A (S i) j.
Proof. intros [L _] H. unfold ent, je. rewrite sl_nth by (fold (@je (list T)); rewrite je_len; lia). do 2 f_equal. unfold slice_pos. cbn [Z.ltb Z.compare]. lia. Qed.
Definition t_dx : mat := msub (je X) (js X).
Definition t_aa : mat := map2m Rdiv (msub (je Y) (js Y)) t_dx.
Definition t_bb : mat := msub (js Y) (mmul t_aa (js X)).
Definition t_nn : list (list bool) := map (map (Rleb 0)) Z.
Definition t_is : list (list bool) := map2m (fun l r => negb l && r) (js t_nn) (je t_nn).
Definition t_ie : list (list bool) := map2m (fun l r => l && negb r) (js t_nn) (je t_nn).
Definition t_vs : mat := msub (js X) (mmul (map2m Rdiv (js Z) (msub (je Z) (js Z))) t_dx).
Definition t_ve : mat := msub (je X) (mmul (map2m Rdiv (je Z) (msub (je Z) (js Z))) t_dx).
Definition t_xs : mat := choose2 t_is t_vs (js X).
Definition t_xe : mat := choose2 t_ie t_ve (je X).
Definition t_all : mat := mscale (g_rsphere g)
    (msub (madd (mmul t_aa (msub (mmap cos t_xs) (mmap cos t_xe))) (mmul (madd (mmul t_aa t_xs) t_bb) (mmap sin t_xs)))
          (mmul (madd (mmul t_aa t_xe) t_bb) (mmap sin t_xe))).
Definition t_any : list (list bool) := map2m orb (js t_nn) (je t_nn).
Ltac shp := repeat first [assumption | apply js_shaped | apply je_shaped | apply (shaped_map2 (X:=R)) | apply (shaped_map2 (X:=bool)) | apply (shaped_mmap (X:=R)) | apply choose2_shaped].
Ltac unf := unfold t_all, t_xs, t_xe, t_vs, t_ve, t_is, t_ie, t_any, t_bb, t_aa, t_dx, t_nn, map2m, mscale, msub, madd, mmul, mmap.
Lemma sh_is : shaped (n - 1) nc t_is. Proof. unf. shp. Qed.
Lemma sh_ie : shaped (n - 1) nc t_ie. Proof. unf. shp. Qed.
Lemma sh_any : shaped (n - 1) nc t_any. Proof. unf. shp. Qed.
Lemma sh_vs : shaped (n - 1) nc t_vs. Proof. unf. shp. Qed.
Lemma sh_ve : shaped (n - 1) nc t_ve. Proof. unf. shp. Qed.
Lemma sh_dx : shaped (n - 1) nc t_dx. Proof. unf. shp. Qed.
Lemma sh_aa : shaped (n - 1) nc t_aa. Proof. unf. shp. Qed.
Lemma sh_bb : shaped (n - 1) nc t_bb. Proof. unf. shp. Qed.
Lemma sh_xs : shaped (n - 1) nc t_xs. Proof. unfold t_xs. apply choose2_shaped; [apply sh_is|apply sh_vs|shp]. Qed.
Lemma sh_xe : shaped (n - 1) nc t_xe. Proof. unfold t_xe. apply choose2_shaped; [apply sh_ie|apply sh_ve|shp]. Qed.
Section Entry.
Variables (i j : nat).
Hypotheses (Hi : (i < n - 1)%nat) (Hj : (j < nc)%nat).
Let x := ent 0 X i j. Let x' := ent 0 X (S i) j.
Let y := ent 0 Y i j. Let y' := ent 0 Y (S i) j.
Let z := ent 0 Z i j. Let z' := ent 0 Z (S i) j.
Lemma e2 (h : R -> R -> R) A B a b : shaped (n - 1) nc A -> shaped (n - 1) nc B -> ent 0 A i j = a -> ent 0 B i j = b -> ent 0 (map2 (map2 h) A B) i j = h a b.
Proof. intros SA SB <- <-. now apply (ent_map2 h 0 0 0 (n - 1) nc). Qed.
Lemma e1 (h : R -> R) A a : shaped (n - 1) nc A -> ent 0 A i j = a -> ent 0 (map (map h) A) i j = h a.
Proof. intros SA <-. now apply (ent_map h 0 0 (n - 1) nc). Qed.
Lemma e_js (A : mat) : shaped n nc A -> ent 0 (js A) i j = ent 0 A i j. Proof. intros S. now apply js_ent. Qed.
Lemma e_je (A : mat) : shaped n nc A -> ent 0 (je A) i j = ent 0 A (S i) j. Proof. intros S. now apply je_ent. Qed.
Lemma e_dx : ent 0 t_dx i j = x' - x. Proof. unfold t_dx, msub. apply e2; try (now apply e_js); try (now apply e_je); shp. Qed.
Lemma e_aa : ent 0 t_aa i j = (y' - y) / (x' - x).
Proof. unfold t_aa, map2m. apply e2; [unfold msub; shp|apply sh_dx|unfold msub; apply e2; try (now apply e_js); try (now apply e_je); shp|apply e_dx]. Qed.
Lemma e_bb : ent 0 t_bb i j = y - (y' - y) / (x' - x) * x.
Proof. unfold t_bb, msub, mmul. apply e2; [shp|apply (shaped_map2 Rmult); [apply sh_aa|shp]|now apply e_js|]. apply e2; [apply sh_aa|shp|apply e_aa|now apply e_js]. Qed.
Lemma e_nn k : (k < n)%nat -> ent false t_nn k j = Rleb 0 (ent 0 Z k j).
Proof. intros H. unfold t_nn. now apply (ent_map (Rleb 0) 0 false n nc). Qed.
Lemma nn_shaped : shaped n nc t_nn. Proof. unfold t_nn. shp. Qed.
Lemma e_mask (h : bool -> bool -> bool) : ent false (map2m h (js t_nn) (je t_nn)) i j = h (Rleb 0 z) (Rleb 0 z').
Proof.
  rewrite (ent_map2 h false false false (n - 1) nc) by (try assumption; try apply js_shaped; try apply je_shaped; apply nn_shaped).
  rewrite (js_ent false t_nn i j nn_shaped Hi), (je_ent false t_nn i j nn_shaped Hi). rewrite !e_nn by lia. reflexivity.
Qed.
Lemma e_part (A : mat) a b : shaped (n - 1) nc A -> ent 0 A i j = a -> b = a / (z' - z) * (x' - x) ->
  ent 0 (mmul (map2m Rdiv A (msub (je Z) (js Z))) t_dx) i j = b.
Proof.
  intros SA EA ->. unfold mmul, map2m, msub. apply e2; [shp|apply sh_dx| |apply e_dx]. apply e2; [assumption|shp|exact EA|]. apply e2; try (now apply e_js); try (now apply e_je); shp.
Qed.
Lemma e_xs : ent 0 t_xs i j = if negb (Rleb 0 z) && Rleb 0 z' then x - z / (z' - z) * (x' - x) else x.
Proof.
  unfold t_xs. rewrite (choose2_ent 0 (n - 1) nc) by (first [apply sh_is|apply sh_vs|shp|assumption]). unfold t_is. rewrite e_mask. rewrite e_js by assumption.
  replace (ent 0 t_vs i j) with (x - z / (z' - z) * (x' - x)); [reflexivity|]. symmetry. unfold t_vs. unfold msub at 1. apply e2; [shp|unfold mmul, map2m, msub; apply (shaped_map2 Rmult); [shp|apply sh_dx]|now apply e_js|].
  apply (e_part _ z); [shp|now apply e_js|reflexivity].
Qed.
Lemma e_xe : ent 0 t_xe i j = if Rleb 0 z && negb (Rleb 0 z') then x' - z' / (z' - z) * (x' - x) else x'.
Proof.
  unfold t_xe. rewrite (choose2_ent 0 (n - 1) nc) by (first [apply sh_ie|apply sh_ve|shp|assumption]). unfold t_ie. rewrite e_mask. rewrite e_je by assumption.
  replace (ent 0 t_ve i j) with (x' - z' / (z' - z) * (x' - x)); [reflexivity|]. symmetry. unfold t_ve. unfold msub at 1. apply e2; [shp|unfold mmul, map2m, msub; apply (shaped_map2 Rmult); [shp|apply sh_dx]|now apply e_je|].
  apply (e_part _ z'); [shp|now apply e_je|reflexivity].
Qed.
Ltac big := repeat first [apply sh_aa | apply sh_bb | apply sh_xs | apply sh_xe | apply (shaped_map2 (X:=R)) | apply (shaped_mmap (X:=R))].
Lemma e_all : (if ent false t_any i j then ent 0 t_all i j else 0) = seg_trapz (g_rsphere g) (x, (y, z)) (x', (y', z')).
Proof.
  unfold t_any. rewrite e_mask. unfold seg_trapz. cbn [fst snd]. rewrite <- e_xs, <- e_xe. destruct (_ || _); [|reflexivity].
  rewrite <- e_bb, <- e_aa. unfold t_all, mscale, msub at 1, madd at 1, mmul at 1, mmul at 1, mmul at 1.
  apply e1; [unfold msub, madd, mmul, mmap; big|]. apply e2; try (unfold msub, madd, mmul, mmap; big).
  - apply e2; try (unfold msub, madd, mmul, mmap; big).
    + apply e2; try (unfold msub, madd, mmul, mmap; big); [reflexivity|]. apply e2; try (unfold mmap; big); (apply e1; [big|reflexivity]).
    + apply e2; try (unfold msub, madd, mmul, mmap; big); [|apply e1; [big|reflexivity]]. apply e2; try (unfold mmul; big); [|reflexivity]. apply e2; try big; reflexivity.
  - apply e2; try (unfold msub, madd, mmul, mmap; big); [|apply e1; [big|reflexivity]]. apply e2; try (unfold mmul; big); [|reflexivity]. apply e2; try big; reflexivity.
Qed.
End Entry.
Lemma trapz_sum : sum_where nc t_all t_any = tab nc (fun j => col_trapz (g_rsphere g) (mcol X j) (mcol Y j) (mcol Z j)).
Proof.
  unfold sum_where. apply tab_ext. intros j Hj. unfold col_trapz. f_equal. destruct SX as [LX _], SY as [LY _], SZ as [LZ _].
  assert (SA : shaped (n - 1) nc t_all).
  { unfold t_all, mscale, msub, madd, mmul, mmap. repeat first [apply sh_aa | apply sh_bb | apply sh_xs | apply sh_xe | apply (shaped_map2 (X:=R)) | apply (shaped_mmap (X:=R))]. }
  destruct SA as [LA FA]. destruct sh_any as [LB FB].
  assert (LC : length (combine (mcol X j) (combine (mcol Y j) (mcol Z j))) = n) by (unfold mcol; rewrite !combine_length, !map_length; lia).
  apply (nth_ext _ _ 0 0); [rewrite map2_length, map_length, pairs_length, LC; lia|]. intros i Hi. rewrite map2_length, LA, LB, Nat.min_id in Hi.
  rewrite (Proofs_Base.map2_nth _ _ _ _ [] []) by lia. change (nth j (nth i t_any []) false) with (ent false t_any i j). change (nth j (nth i t_all []) 0) with (ent 0 t_all i j). rewrite e_all by assumption.
  rewrite (nth_map_lt _ _ _ ((0, (0, 0)), (0, (0, 0)))) by (rewrite pairs_length, LC; exact Hi). rewrite (pairs_nth _ _ (0, (0, 0))) by (rewrite LC; lia). cbn [fst snd].
  assert (C : forall k, (k < n)%nat -> nth k (combine (mcol X j) (combine (mcol Y j) (mcol Z j))) (0, (0, 0)) = (ent 0 X k j, (ent 0 Y k j, ent 0 Z k j))).
  { intros k Hk. unfold mcol. rewrite !combine_nth by (rewrite ?combine_length, !map_length; lia). unfold ent. rewrite !(nth_map_lt _ _ _ []) by lia. reflexivity. }
  rewrite !C by lia. reflexivity.
Qed.
End Trapz.

Lemma held2_shaped {A} (d : A) m f nr nc : shaped nr nc f -> shaped nr nc (held2 d m f).
Proof. intros [L F]. split; [unfold held2; now rewrite map_length|]. unfold held2. apply Forall_map. eapply Forall_impl; [|exact F]. intros r Hr. unfold held. now rewrite map_length. Qed.
Lemma shapedb_of {A} nr nc (M : list (list A)) : shaped nr nc M -> shapedb nr nc M = true.
Proof. intros [L F]. unfold shapedb. rewrite L, Nat.eqb_refl. cbn. apply forallb_forall. rewrite Forall_forall in F. intros r Hr. now rewrite (F r Hr), Nat.eqb_refl. Qed.
Lemma trapz_run g m e x y z n nc : present2 (m ++ e) x -> present2 (m ++ e) y -> present2 (m ++ e) z -> shaped n nc x -> shaped n nc y -> shaped n nc z ->
  exists new, trapz_parts g nc x y z (m ++ e)
    = alloc (tab nc (fun j => col_trapz (g_rsphere g) (mcol (held2 0 (m ++ e) x) j) (mcol (held2 0 (m ++ e) y) j) (mcol (held2 0 (m ++ e) z) j))) (m ++ new).
Proof.
  intros Px Py Pz Sx Sy Sz. set (M := m ++ e) in *.
  set (X := held2 0 M x). set (Y := held2 0 M y). set (Z := held2 0 M z).
  assert (SX : shaped n nc X) by now apply held2_shaped. assert (SY : shaped n nc Y) by now apply held2_shaped. assert (SZ : shaped n nc Z) by now apply held2_shaped.
  exists (e ++ concat (t_xs X Z) ++ concat (t_xe X Z)).
  unfold trapz_parts. cbv zeta. rewrite !b_load2.
  assert (HS : forall i j a, held2 0 M (sl i j a) = sl i j (held2 0 M a)) by (intros i j a; unfold held2; now rewrite sl_map).
  rewrite !HS. fold X Y Z. change (map (map (Rleb 0)) Z) with (t_nn Z). change (msub (sl (Some 1%Z) None X) (sl None (Some (-1)%Z) X)) with (t_dx X).
  change (map2m Rdiv (msub (sl (Some 1%Z) None Y) (sl None (Some (-1)%Z) Y)) (t_dx X)) with (t_aa X Y).
  change (msub (sl None (Some (-1)%Z) Y) (mmul (t_aa X Y) (sl None (Some (-1)%Z) X))) with (t_bb X Y).
  change (map2m (fun l r => negb l && r) (sl None (Some (-1)%Z) (t_nn Z)) (sl (Some 1%Z) None (t_nn Z))) with (t_is Z).
  change (map2m (fun l r => l && negb r) (sl None (Some (-1)%Z) (t_nn Z)) (sl (Some 1%Z) None (t_nn Z))) with (t_ie Z).
  change (map2m orb (sl None (Some (-1)%Z) (t_nn Z)) (sl (Some 1%Z) None (t_nn Z))) with (t_any Z).
  assert (S1 := js_shaped n nc X SX). assert (S2 := je_shaped n nc X SX). assert (S3 := js_shaped n nc Z SZ). assert (S4 := je_shaped n nc Z SZ).
  assert (SI := sh_is n nc Z SZ). assert (SE := sh_ie n nc Z SZ). assert (SD := sh_dx n nc X SX). assert (SV := sh_vs n nc X Z SX SZ). assert (SW := sh_ve n nc X Z SX SZ).
  assert (S5 : shaped (n - 1) nc (msub (sl (Some 1%Z) None Z) (sl None (Some (-1)%Z) Z))) by now apply (shaped_map2 Rminus).
  rewrite b_alloc2, b_load, held_compress2, held2_rows0.
  assert (V1 : vsub (compress2 (t_is Z) (sl None (Some (-1)%Z) X)) (vmul (map2 Rdiv (compress2 (t_is Z) (sl None (Some (-1)%Z) Z)) (vsub (compress2 (t_is Z) (sl (Some 1%Z) None Z)) (compress2 (t_is Z) (sl None (Some (-1)%Z) Z)))) (compress2 (t_is Z) (t_dx X))) = compress2 (t_is Z) (t_vs X Z)).
  { unfold vsub, vmul. rewrite (compress2_map2 Rminus (n - 1) nc) by assumption. rewrite (compress2_map2 Rdiv (n - 1) nc) by assumption.
    rewrite (compress2_map2 Rmult (n - 1) nc) by (first [assumption | now apply (shaped_map2 Rdiv)]). rewrite (compress2_map2 Rminus (n - 1) nc); [reflexivity|assumption|assumption|]. apply (shaped_map2 Rmult); [now apply (shaped_map2 Rdiv)|assumption]. }
  rewrite V1. rewrite (masked_write (n - 1) nc) by assumption. fold (t_xs X Z). cbv beta.
  rewrite b_alloc2, b_load, held_compress2, held2_rows0.
  assert (V2 : vsub (compress2 (t_ie Z) (sl (Some 1%Z) None X)) (vmul (map2 Rdiv (compress2 (t_ie Z) (sl (Some 1%Z) None Z)) (vsub (compress2 (t_ie Z) (sl (Some 1%Z) None Z)) (compress2 (t_ie Z) (sl None (Some (-1)%Z) Z)))) (compress2 (t_ie Z) (t_dx X))) = compress2 (t_ie Z) (t_ve X Z)).
  { unfold vsub, vmul. rewrite (compress2_map2 Rminus (n - 1) nc) by assumption. rewrite (compress2_map2 Rdiv (n - 1) nc) by assumption.
    rewrite (compress2_map2 Rmult (n - 1) nc) by (first [assumption | now apply (shaped_map2 Rdiv)]). rewrite (compress2_map2 Rminus (n - 1) nc); [reflexivity|assumption|assumption|]. apply (shaped_map2 Rmult); [now apply (shaped_map2 Rdiv)|assumption]. }
  rewrite V2. rewrite (masked_write (n - 1) nc) by assumption. fold (t_xe X Z). cbv beta. rewrite !b_load2.
  assert (R1 : rows_at (length M) (sl None (Some (-1)%Z) X) = rows_at (length M) (t_xs X Z)) by (apply rows_at_same, (shaped_same (n - 1) nc); [assumption|now apply sh_xs]).
  assert (R2 : rows_at (length (M ++ concat (t_xs X Z))) (sl (Some 1%Z) None X) = rows_at (length (M ++ concat (t_xs X Z))) (t_xe X Z)) by (apply rows_at_same, (shaped_same (n - 1) nc); [assumption|now apply sh_xe]).
  rewrite R1, R2. rewrite held2_rows0. rewrite <- app_assoc. rewrite held2_rows.
  change (mscale _ _) with (t_all g X Y Z). rewrite (trapz_sum g n nc X Y Z) by assumption. unfold M. rewrite <- !app_assoc. reflexivity.
Qed.

Lemma firstn_shaped {A} nr nc k (M : list (list A)) : shaped nr nc M -> (k <= nc)%nat -> shaped nr k (map (firstn k) M).
Proof. intros [L F] H. split; [now rewrite map_length|]. apply Forall_map. eapply Forall_impl; [|exact F]. intros r Hr. cbv beta in *. rewrite firstn_length. lia. Qed.
Lemma held2_firstn {A} (d : A) m k a : held2 d m (map (firstn k) a) = map (firstn k) (held2 d m a).
Proof. unfold held2. rewrite !map_map. apply map_ext. intros r. unfold held. now rewrite firstn_map. Qed.
Lemma present2_firstn {A} (m : list A) k a : present2 m a -> present2 m (map (firstn k) a).
Proof.
  unfold present2. intros H. apply Forall_map. eapply Forall_impl; [|exact H]. intros r Hr. unfold present in *. rewrite Forall_forall in *. intros q Hq. apply Hr.
  rewrite <- (firstn_skipn k r). apply in_or_app. now left.
Qed.
Lemma phi2_col g k j : (j < k)%nat -> (k <= g_nlon g)%nat -> mcol (map (firstn k) (g_phi2 g)) j = g_phi g.
Proof.
  intros Hj Hk. unfold mcol, g_phi2. rewrite !map_map. rewrite <- (map_id (g_phi g)) at 2. apply map_ext. intros t. rewrite firstn_map. rewrite (nth_map_lt _ _ _ 0) by (rewrite firstn_length, lam_length; lia). reflexivity.
Qed.
Lemma phi2_shape g : shaped (g_nlat g) (g_nlon g) (g_phi2 g).
Proof. split; unfold g_phi2; [now rewrite map_length, phi_length|]. apply Forall_map. apply Forall_forall. intros t _. now rewrite map_length, lam_length. Qed.
Lemma rows_at_present {A} (m : list A) L : present2 (m ++ concat L) (rows_at (length m) L).
Proof.
  unfold present2. apply Forall_forall. intros r Hr. unfold present. apply Forall_forall. intros q Hq.
  assert (I : In q (concat (rows_at (length m) L))) by (apply in_concat; eauto). rewrite rows_at_concat in I. apply in_seq in I. rewrite app_length. lia.
Qed.
Lemma rows_at_shaped {A} nr nc (L : list (list A)) p : shaped nr nc L -> shaped nr nc (rows_at p L).
Proof. intros [LL F]. split; [now rewrite rows_at_length|]. clear LL. revert p. induction F as [|r L E F IH]; intros p; cbn; constructor; auto. now rewrite seq_length. Qed.
Lemma trapz_computes g m phi2 y z nc : held2 0 m phi2 = g_phi2 g -> present2 m phi2 -> present2 m y -> shaped (g_nlat g) nc y -> (0 < g_nlat g)%nat -> (nc <= g_nlon g)%nat ->
  match z with Some z => present2 m z /\ shaped (g_nlat g) nc z | None => True end ->
  computes 0 (trapz_inplace g phi2 y z) m (quad_meridional g (A2 (held2 0 m y)) (match z with Some z => Some (held2 0 m z) | None => None end) "sptrapz").
Proof.
  intros E P Py Sy Hn Hc Hz. assert (SY := held2_shaped 0 m y _ _ Sy). assert (Ny : match y with [] => 0%nat | r :: _ => length r end = nc).
  { destruct Sy as [L F]. destruct y as [|r y]; [cbn in L; lia|]. now inversion F. }
  assert (SP : shaped (g_nlat g) (g_nlon g) phi2).
  { assert (Q := phi2_shape g). rewrite <- E in Q. destruct Q as [L F]. unfold held2 in L, F. rewrite map_length in L. split; [exact L|]. rewrite Forall_map in F. eapply Forall_impl; [|exact F]. intros r Hr. unfold held in Hr. now rewrite map_length in Hr. }
  unfold quad_meridional. destruct SY as [LY FY] eqn:ESY. rewrite LY, Nat.eqb_refl. unfold passert. rewrite (ncols_shaped _ _ _ SY Hn). change (is_boxcount "sptrapz") with false. change (is_sptrapz "sptrapz") with true. cbv iota zeta.
  rewrite (proj2 (Nat.leb_le _ _) Hc).
  set (x := map (firstn nc) phi2). assert (Sx : shaped (g_nlat g) nc x) by (now apply (firstn_shaped _ (g_nlon g))). assert (Px : present2 m x) by now apply present2_firstn.
  assert (Ex : held2 0 m x = map (firstn nc) (g_phi2 g)) by (unfold x; now rewrite held2_firstn, E).
  destruct z as [z|].
  - destruct Hz as [Pz Sz]. rewrite (shapedb_of _ _ _ (held2_shaped 0 m z _ _ Sz)).
    destruct (trapz_run g m [] x y z (g_nlat g) nc) as [new R]; try assumption; try (now apply present2_app). rewrite !app_nil_r in R. rewrite Ex in R.
    rewrite (tab_ext nc _ (fun j => col_trapz (g_rsphere g) (mcol (map (firstn nc) (g_phi2 g)) j) (mcol (held2 0 m y) j) (mcol (held2 0 m z) j))) by (intros j Hj; now rewrite phi2_col).
    apply (computes_new _ _ _ new). unfold trapz_inplace. rewrite b_load2, b_ret, Ny. fold x. rewrite R. reflexivity.
  - set (Z := mmap (fun _ => 1) (held2 0 m y)). assert (SZ : shaped (g_nlat g) nc Z) by now apply (shaped_mmap (fun _ => 1)).
    replace (mat_of (g_nlat g) nc (fun _ _ => 1)) with Z by (apply mat_of_entries; [exact SZ|]; intros i j Hi Hj; now apply (mget_mmap (fun _ => 1) (g_nlat g) nc)).
    rewrite (shapedb_of _ _ _ SZ).
    destruct (trapz_run g m (concat Z) x y (rows_at (length m) Z) (g_nlat g) nc) as [new R]; try assumption; try (now apply present2_app); [apply rows_at_present|now apply rows_at_shaped|].
    rewrite held2_rows0, !held2_app, Ex in R by assumption.
    rewrite (tab_ext nc _ (fun j => col_trapz (g_rsphere g) (mcol (map (firstn nc) (g_phi2 g)) j) (mcol (held2 0 m y) j) (mcol Z j))) by (intros j Hj; now rewrite phi2_col).
    apply (computes_new _ _ _ new). unfold trapz_inplace. rewrite b_load2, Ny. fold x Z. rewrite b_alloc2. rewrite R. reflexivity.
Qed.
