(** Wavenumber ranges of Python numbers: C123. *)
From Coq Require Export String.
From Verif Require Import Base Spec_Fourier Spec_Ranges Model_Grid Model_Fourier Model_Ranges Proofs_Base Proofs_Grid Proofs_StateList Proofs_Plot Proofs_Trig Proofs_Filter Proofs_Fourier Proofs_From Props_Fourier.
From Verif Require Import Model_Region.
From Coq Require Import List Lia Lra.
Open Scope R_scope.

Lemma slice_pos_lt n k i : (i < n)%nat -> ((i < slice_pos n k)%nat <-> (Z.of_nat i < counted (n - 1) k)%Z).
Proof.
  intros Hi. unfold slice_pos, counted. destruct (Z.ltb_spec k 0); lia.
Qed.
Lemma slice_pos_le n k : (slice_pos n k <= n)%nat.
Proof. unfold slice_pos. destruct (Z.ltb_spec k 0); lia. Qed.
Lemma res_map_two {A B C} (f : A -> res B) (F : B -> res C) l :
  (forall a, In a l -> exists b, f a = Ok b) ->
  bind (res_map f l) (res_map F) = res_map (fun a => bind (f a) F) l.
Proof.
  induction l as [|a l IH]; intros H; [reflexivity|]. cbn [res_map].
  destruct (H a (or_introl eq_refl)) as [b Eb]. rewrite Eb. cbn [bind].
  specialize (IH (fun x Hx => H x (or_intror Hx))).
  assert (T : exists r, res_map f l = Ok r).
  { clear - H. induction l as [|x l IHl]; [now exists []|].
    destruct IHl as [r Er]; [intros y [->|Hy]; apply H; [now left|right; now right]|].
    destruct (H x (or_intror (or_introl eq_refl))) as [y Ey]. exists (y :: r). cbn [res_map]. rewrite Ey. cbn [bind]. now rewrite Er. }
  destruct T as [r Er]. rewrite Er in IH |- *. cbn [bind res_map] in *. rewrite <- IH. reflexivity.
Qed.
Lemma rfft_ok nr nc f : (0 < nc)%nat -> shaped nr nc f -> forall x, In x f -> exists X, rfft x = Ok X.
Proof.
  intros Hn [_ F] x Hx. pose proof (proj1 (Forall_forall _ _) F x Hx) as L. cbv beta in L.
  destruct x; [cbn in L; lia|]. eexists. reflexivity.
Qed.
Lemma res_map_ext_in {A B} (f F : A -> res B) l : (forall a, In a l -> f a = F a) -> res_map f l = res_map F l.
Proof.
  induction l as [|a l IH]; intros H; [reflexivity|]. cbn [res_map]. rewrite (H a) by now left.
  rewrite IH by (intros; apply H; now right). reflexivity.
Qed.

(** the natural numbers that stand for a range *)
Lemma range_nat h kmin kmax : exists a b,
  (forall k, (k <= h)%nat -> (in_range a b k <-> remains h kmin kmax k))
  /\ (forall X : list cplx, length X = S h -> clear_from (kmax + 1) (clear_to kmin X) = keep a b X)
  /\ forall x : vec, length x = S h ->
       py_slice x (slice_pos (length x) kmin) (slice_pos (length x) (kmax + 1)) = py_slice x a (b + 1).
Proof.
  set (p := slice_pos (S h) kmin). set (q := slice_pos (S h) (kmax + 1)).
  assert (P : forall k, (k <= h)%nat -> ((k < p)%nat <-> (Z.of_nat k < counted h kmin)%Z)).
  { intros k Hk. unfold p. rewrite slice_pos_lt by lia. now replace (S h - 1)%nat with h by lia. }
  assert (Q : forall k, (k <= h)%nat -> ((k < q)%nat <-> (Z.of_nat k < counted h (kmax + 1))%Z)).
  { intros k Hk. unfold q. rewrite slice_pos_lt by lia. now replace (S h - 1)%nat with h by lia. }
  assert (E : forall X : list cplx, length X = S h -> clear_from (kmax + 1) (clear_to kmin X)
    = tab (S h) (fun k => if Nat.ltb k q then if Nat.ltb k p then (0, 0) else nth k X (0, 0) else (0, 0))).
  { intros X L. unfold clear_from, clear_to. rewrite !tab_length, L. fold p q. apply tab_ext. intros k Hk. now rewrite tab_nth by exact Hk. }
  destruct (Nat.eq_dec q 0) as [Z0|NZ].
  - exists (S h), 0%nat. split; [|split].
    + intros k Hk. specialize (Q k Hk). unfold in_range, remains. lia.
    + intros X L. rewrite E by exact L. unfold keep. rewrite L. apply tab_ext. intros k Hk.
      destruct (Nat.ltb_spec k q); [lia|]. destruct (Nat.ltb_spec k (S h)); [reflexivity|lia].
    + intros x L. rewrite L. fold p q. rewrite Z0. unfold py_slice. replace (0 + 1 - S h)%nat with 0%nat by lia. reflexivity.
  - exists p, (q - 1)%nat. split; [|split].
    + intros k Hk. specialize (P k Hk). specialize (Q k Hk). unfold in_range, remains. lia.
    + intros X L. rewrite E by exact L. unfold keep. rewrite L. apply tab_ext. intros k Hk.
      replace (q - 1 + 1)%nat with q by lia.
      destruct (Nat.ltb_spec k q), (Nat.ltb_spec k p), (Nat.leb_spec q k); cbn [orb]; lia || reflexivity.
    + intros x L. rewrite L. fold p q. now replace (q - 1 + 1)%nat with q by lia.
Qed.
Lemma restrict_range_nat h nr f kmin kmax : (1 <= h)%nat -> shaped nr (2 * h) f -> exists a b,
  (forall k, (k <= h)%nat -> (in_range a b k <-> remains h kmin kmax k))
  /\ restrict_fourier_range f (WInt kmin) (WInt kmax) = restrict_fourier_zonal f a b
  /\ envelope_hilbert_range f [WInt kmin; WInt kmax] = envelope_hilbert f a b.
Proof.
  intros H1 Sf. destruct (range_nat h kmin kmax) as [a [b [I [E _]]]]. exists a, b. split; [exact I|].
  assert (R : restrict_fourier_range f (WInt kmin) (WInt kmax) = restrict_fourier_zonal f a b).
  { unfold restrict_fourier_range, restrict_fourier_zonal. cbn [as_index wnum_incr bind].
    change (bind (res_map rfft f) (res_map (fun X => irfft (clear_from (kmax + 1) (clear_to kmin X)))) = res_map (restrict_row a b) f).
    rewrite res_map_two by (apply (rfft_ok nr (2 * h)); [lia|exact Sf]).
    apply res_map_ext_in. intros x Hx. unfold restrict_row.
    pose proof (proj1 (Forall_forall _ _) (proj2 Sf) x Hx) as L. cbv beta in L.
    unfold rfft. destruct x as [|x0 x]; [cbn in L; lia|]. cbn [bind]. rewrite E; [reflexivity|].
    rewrite tab_length, L, (Nat.mul_comm 2 h), Nat.div_mul by lia. lia. }
  split; [exact R|]. unfold envelope_hilbert_range, envelope_hilbert. cbn [unpack_range bind fst snd]. now rewrite R.
Qed.

(** ** C123 *)
(** What any two integers do: the wavenumbers from [kmin] to [kmax] remain, where
    a negative [kmin] and a negative [kmax + 1] count from the end. *)
Theorem C123_restrict : forall h nr f kmin kmax, (1 <= h)%nat -> shaped nr (2 * h) f ->
  exists out, restrict_fourier_range f (WInt kmin) (WInt kmax) = Ok out /\ shaped nr (2 * h) out
  /\ forall i k, (i < nr)%nat -> (k <= h)%nat ->
    (remains h kmin kmax k -> cos_coeff (nth i out []) k = cos_coeff (nth i f []) k /\ sin_coeff (nth i out []) k = sin_coeff (nth i f []) k)
    /\ (~ remains h kmin kmax k -> cos_coeff (nth i out []) k = 0 /\ sin_coeff (nth i out []) k = 0).
Proof.
  intros h nr f kmin kmax H1 Sf. destruct (restrict_range_nat h nr f kmin kmax H1 Sf) as [a [b [I [E _]]]].
  destruct (C66_spectrum_partial h nr f a b H1 Sf) as [out [Eo [So Ho]]].
  exists out. split; [now rewrite E|]. split; [exact So|]. intros i k Hi Hk. specialize (I k Hk). destruct (Ho i k Hi Hk) as [P Q].
  split; intros R; [apply P|apply Q]; now rewrite I.
Qed.
Print Assumptions C123_restrict.

(** The range is the one that was asked for if it starts at 0 or above and ends at
    -1 or above.  Missing: other negative numbers and odd numbers of longitudes. *)
Lemma remains_asked h kmin kmax k : (0 <= kmin)%Z -> (-1 <= kmax)%Z -> (remains h kmin kmax k <-> asked_for kmin kmax k).
Proof.
  intros H1 H2. unfold remains, asked_for, counted.
  destruct (Z.ltb_spec kmin 0); [lia|]. destruct (Z.ltb_spec (kmax + 1) 0); lia.
Qed.
Theorem C123_range_partial : forall h nr f kmin kmax, (1 <= h)%nat -> shaped nr (2 * h) f -> (0 <= kmin)%Z -> (-1 <= kmax)%Z ->
  exists out, restrict_fourier_range f (WInt kmin) (WInt kmax) = Ok out /\ shaped nr (2 * h) out
  /\ forall i k, (i < nr)%nat -> (k <= h)%nat ->
    (asked_for kmin kmax k -> cos_coeff (nth i out []) k = cos_coeff (nth i f []) k /\ sin_coeff (nth i out []) k = sin_coeff (nth i f []) k)
    /\ (~ asked_for kmin kmax k -> cos_coeff (nth i out []) k = 0 /\ sin_coeff (nth i out []) k = 0).
Proof.
  intros h nr f kmin kmax H1 Sf K1 K2. destruct (C123_restrict h nr f kmin kmax H1 Sf) as [out [E [So H]]].
  exists out. split; [exact E|]. split; [exact So|]. intros i k Hi Hk. rewrite <- (remains_asked h) by assumption. now apply H.
Qed.
Print Assumptions C123_range_partial.

(** With a range that starts below 0 the wave inside of the range is removed, and
    with the range from 0 to -2, which contains no wavenumber, it is kept. *)
Theorem C123_range_refuted : forall h a b, (2 <= h)%nat ->
  asked_for (-1) (Z.of_nat h) 1 /\ (forall k, ~ asked_for 0 (-2) k)
  /\ restrict_fourier_range [tab (2 * h) (zonal_wave (2 * h) 1 a b)] (WInt (-1)) (WInt (Z.of_nat h)) = Ok [tab (2 * h) (fun _ => 0)]
  /\ restrict_fourier_range [tab (2 * h) (zonal_wave (2 * h) 1 a b)] (WInt 0) (WInt (-2)) = Ok [tab (2 * h) (zonal_wave (2 * h) 1 a b)].
Proof.
  intros h a b H2. assert (H1 : (1 <= h)%nat) by lia.
  set (f := [tab (2 * h) (zonal_wave (2 * h) 1 a b)]).
  assert (Ef : f = mat_of 1 (2 * h) (fun i => zonal_wave (2 * h) ((fun _ => 1%nat) i) ((fun _ => a) i) ((fun _ => b) i))) by reflexivity.
  assert (Sf : shaped 1 (2 * h) f) by (rewrite Ef; apply shaped_mat_of).
  split; [unfold asked_for; lia|]. split; [unfold asked_for; lia|]. split.
  - destruct (restrict_range_nat h 1 f (-1) (Z.of_nat h) H1 Sf) as [p [q [I [E _]]]]. rewrite E, Ef.
    rewrite (C66_outside h 1 p q (fun _ => a) (fun _ => b) (fun _ => 1%nat) H1); [reflexivity|].
    intros i _. split; [lia|]. rewrite I by lia. unfold remains, counted. repeat match goal with |- context [Z.ltb ?x ?y] => destruct (Z.ltb_spec x y) end; lia.
  - destruct (restrict_range_nat h 1 f 0 (-2) H1 Sf) as [p [q [I [E _]]]]. rewrite E, Ef.
    rewrite (C66_inside h 1 p q (fun _ => a) (fun _ => b) (fun _ => 1%nat) H1); [reflexivity|].
    intros i _. split; [lia|]. rewrite I by lia. unfold remains, counted. repeat match goal with |- context [Z.ltb ?x ?y] => destruct (Z.ltb_spec x y) end; lia.
Qed.
Print Assumptions C123_range_refuted.

(** The envelope of waves that remain is their amplitude, that of other waves 0. *)
Theorem C123_envelope : forall h nr kmin kmax (a b : nat -> R) (k : nat -> nat), (1 <= h)%nat ->
  (forall i, (i < nr)%nat -> (0 < k i < h)%nat) ->
  exists e, envelope_hilbert_range (mat_of nr (2 * h) (fun i => zonal_wave (2 * h) (k i) (a i) (b i))) [WInt kmin; WInt kmax] = Ok e
  /\ shaped nr (2 * h) e
  /\ ((forall i, (i < nr)%nat -> remains h kmin kmax (k i)) -> forall i j, (i < nr)%nat -> (j < 2 * h)%nat -> mget e i j = amplitude (a i) (b i))
  /\ ((forall i, (i < nr)%nat -> ~ remains h kmin kmax (k i)) -> forall i j, (i < nr)%nat -> (j < 2 * h)%nat -> mget e i j = 0).
Proof.
  intros h nr kmin kmax a b k H1 K. set (f := mat_of nr (2 * h) _).
  assert (Sf : shaped nr (2 * h) f) by apply shaped_mat_of.
  destruct (restrict_range_nat h nr f kmin kmax H1 Sf) as [p [q [I [_ E]]]].
  eexists. split; [rewrite E; now apply (envelope_field h nr)|]. split; [apply shaped_mat_of|].
  pose proof (envelope_field h nr f p q H1 Sf) as G. split; intros R i j Hi Hj.
  - unfold f in G. rewrite (C67_inside_partial h nr p q a b k H1) in G.
    + apply Ok_inj in G. fold f in G. rewrite <- G. now rewrite mget_mat_of.
    + intros l Hl. specialize (K l Hl). split; [rewrite I by lia; now apply R|now left].
  - unfold f in G. rewrite (C67_outside_partial h nr p q a b k H1) in G.
    + apply Ok_inj in G. fold f in G. rewrite <- G. now rewrite mget_mat_of.
    + intros l Hl. specialize (K l Hl). split; [lia|]. rewrite I by lia. now apply R.
Qed.
Print Assumptions C123_envelope.

Lemma power_ok nr nc f : (0 < nc)%nat -> shaped nr nc f -> forall x, In x f -> exists p, power x = Ok p.
Proof.
  intros Hn Sf x Hx. destruct (rfft_ok nr nc f Hn Sf x Hx) as [X E]. unfold power. rewrite E. eexists. reflexivity.
Qed.
Lemma dominant_range_nat nr nc f g smooth kmin kmax : (0 < nc)%nat -> shaped nr nc f -> exists a b,
  (forall k, (k <= nc / 2)%nat -> (in_range a b k <-> remains (nc / 2) kmin kmax k))
  /\ dominant_wavenumber_range f g smooth [WInt kmin; WInt kmax] = dominant_wavenumber_fourier f g smooth a b.
Proof.
  intros Hn Sf. destruct (range_nat (nc / 2) kmin kmax) as [a [b [I [_ E]]]]. exists a, b. split; [exact I|].
  unfold dominant_wavenumber_range, dominant_wavenumber_fourier. cbn [unpack_range bind fst snd as_index wnum_incr].
  set (F := fun x : vec => do k <- argmax (py_slice x (slice_pos (length x) kmin) (slice_pos (length x) (kmax + 1))); Ok (INR k)).
  set (k2 := fun k_dom : vec => match smooth with None => Ok (A1 k_dom) | Some w => filter_meridional g (A1 k_dom) w end).
  assert (A : forall (m : res mat), bind m (fun p => bind (res_map F p) k2) = bind (bind m (res_map F)) k2) by (intros [m|e]; reflexivity).
  change (bind (res_map power f) (fun p => bind (res_map F p) k2)
    = bind (res_map (fun x => do p <- power x; do k <- argmax (py_slice p a (b + 1)); Ok (INR k)) f) k2).
  rewrite A, res_map_two by (apply (power_ok nr nc); assumption). f_equal. apply res_map_ext_in. intros x Hx.
  pose proof (proj1 (Forall_forall _ _) (proj2 Sf) x Hx) as L. cbv beta in L.
  rewrite power_form by (destruct x; [cbn in L; lia|discriminate]). cbn [bind]. unfold F.
  rewrite E; [reflexivity|]. rewrite tab_length, L. lia.
Qed.

(** The dominant wavenumber among those that remain, counted from the first of
    them; a ValueError if none remains. *)
Theorem C123_dominant : forall nr nc f g kmin kmax, shaped nr nc f -> (0 < nc)%nat ->
  (exists k, (k <= nc / 2)%nat /\ remains (nc / 2) kmin kmax k) ->
  exists lo ks, dominant_wavenumber_range f g None [WInt kmin; WInt kmax] = Ok (A1 (map INR ks)) /\ length ks = nr
  /\ remains (nc / 2) kmin kmax lo /\ (forall k, (k < lo)%nat -> ~ remains (nc / 2) kmin kmax k)
  /\ forall i, (i < nr)%nat -> let k := (lo + nth i ks 0)%nat in
     (k <= nc / 2)%nat /\ remains (nc / 2) kmin kmax k
     /\ (forall l, (l <= nc / 2)%nat -> remains (nc / 2) kmin kmax l -> wave_power (nth i f []) l <= wave_power (nth i f []) k)
     /\ (forall l, (l < k)%nat -> remains (nc / 2) kmin kmax l -> wave_power (nth i f []) l < wave_power (nth i f []) k).
Proof.
  intros nr nc f g kmin kmax Sf Hn [k0 [Hk0 R0]]. destruct (dominant_range_nat nr nc f g None kmin kmax Hn Sf) as [a [b [I E]]].
  pose proof (proj2 (I k0 Hk0) R0) as K0. unfold in_range in K0.
  destruct (C68_offset_partial nr nc f g a b Sf Hn ltac:(lia) ltac:(lia)) as [ks [Ek [Lk H]]].
  exists a, ks. split; [now rewrite E|]. split; [exact Lk|]. split; [apply I; unfold in_range; lia|].
  split; [intros k Hk; rewrite <- I by lia; unfold in_range; lia|]. intros i Hi. destruct (H i Hi) as [P1 [P2 P3]].
  unfold in_range in P1. split; [lia|]. split; [apply I; unfold in_range; lia|]. split.
  - intros l Hl Rl. apply P2. apply I in Rl; [|exact Hl]. unfold in_range in *. lia.
  - intros l Hl Rl. apply P3; [|exact Hl]. apply I in Rl; [|lia]. unfold in_range in *. lia.
Qed.
Print Assumptions C123_dominant.

Theorem C123_no_wavenumber : forall nr nc f g smooth kmin kmax, shaped nr nc f -> (0 < nr)%nat -> (0 < nc)%nat ->
  (forall k, (k <= nc / 2)%nat -> ~ remains (nc / 2) kmin kmax k) ->
  dominant_wavenumber_range f g smooth [WInt kmin; WInt kmax] = Err ValueError.
Proof.
  intros nr nc f g smooth kmin kmax Sf Nr Hn N. destruct (dominant_range_nat nr nc f g smooth kmin kmax Hn Sf) as [a [b [I E]]].
  rewrite E. apply (C68_empty_range nr nc); [exact Sf|exact Nr|].
  destruct (Nat.ltb_spec (Nat.min b (nc / 2)) a) as [|Q]; [assumption|exfalso].
  apply (N a ltac:(lia)), I; [lia|]. unfold in_range. lia.
Qed.
Print Assumptions C123_no_wavenumber.

(** Numbers which are not integers, which the documentation admits, raise a
    TypeError; sequences of another length an AssertionError. *)
Theorem C123_number_refuted : forall nr nc f g smooth kmin kmax, shaped nr nc f -> (0 < nc)%nat ->
  (exists x, kmin = WFloat x) \/ (exists x, kmax = WFloat x) ->
  restrict_fourier_range f kmin kmax = Err TypeError
  /\ envelope_hilbert_range f [kmin; kmax] = Err TypeError
  /\ dominant_wavenumber_range f g smooth [kmin; kmax] = Err TypeError.
Proof.
  intros nr nc f g smooth kmin kmax Sf Hn W.
  destruct (res_map_total rfft f (rfft_ok nr nc f Hn Sf)) as [X EX].
  destruct (res_map_total power f (power_ok nr nc f Hn Sf)) as [P EP].
  assert (R : restrict_fourier_range f kmin kmax = Err TypeError).
  { unfold restrict_fourier_range. rewrite EX. cbn [bind]. destruct W as [[x ->]|[x ->]]; [reflexivity|]. now destruct kmin. }
  split; [exact R|]. split.
  - unfold envelope_hilbert_range. cbn [unpack_range bind fst snd]. now rewrite R.
  - unfold dominant_wavenumber_range. cbn [unpack_range bind fst snd]. rewrite EP. cbn [bind].
    destruct W as [[x ->]|[x ->]]; [reflexivity|]. now destruct kmin.
Qed.
Print Assumptions C123_number_refuted.

Theorem C123_length : forall f g smooth r, length r <> 2%nat ->
  envelope_hilbert_range f r = Err AssertionError /\ dominant_wavenumber_range f g smooth r = Err AssertionError.
Proof.
  intros f g smooth [|a [|b [|c r]]] H; try (split; reflexivity). now destruct H.
Qed.
Print Assumptions C123_length.

(** The functions with natural numbers as range, which the other theorems are
    about, are these functions. *)
Theorem C123_natural : forall nr nc f g smooth (kmin kmax : nat), shaped nr nc f -> (0 < nc)%nat ->
  restrict_fourier_zonal f kmin kmax = restrict_fourier_range f (WInt (Z.of_nat kmin)) (WInt (Z.of_nat kmax))
  /\ envelope_hilbert f kmin kmax = envelope_hilbert_range f [WInt (Z.of_nat kmin); WInt (Z.of_nat kmax)]
  /\ dominant_wavenumber_fourier f g smooth kmin kmax = dominant_wavenumber_range f g smooth [WInt (Z.of_nat kmin); WInt (Z.of_nat kmax)].
Proof.
  intros nr nc f g smooth kmin kmax Sf Hn.
  assert (R : restrict_fourier_zonal f kmin kmax = restrict_fourier_range f (WInt (Z.of_nat kmin)) (WInt (Z.of_nat kmax))).
  { unfold restrict_fourier_range, restrict_fourier_zonal. cbn [as_index wnum_incr bind].
    change (res_map (restrict_row kmin kmax) f
      = bind (res_map rfft f) (res_map (fun X => irfft (clear_from (Z.of_nat kmax + 1) (clear_to (Z.of_nat kmin) X))))).
    rewrite res_map_two by (apply (rfft_ok nr nc); assumption). apply res_map_ext_in. intros x _. unfold restrict_row.
    destruct (rfft x) as [X|]; [|reflexivity]. cbn [bind]. f_equal.
    unfold keep, clear_from, clear_to. rewrite !tab_length. apply tab_ext. intros k Hk. rewrite tab_nth by exact Hk.
    unfold slice_pos. destruct (Z.ltb_spec (Z.of_nat kmax + 1) 0); [lia|]. destruct (Z.ltb_spec (Z.of_nat kmin) 0); [lia|].
    repeat match goal with |- context [Nat.ltb ?a ?b] => destruct (Nat.ltb_spec a b) | |- context [Nat.leb ?a ?b] => destruct (Nat.leb_spec a b) end; cbn [orb]; lia || reflexivity. }
  split; [exact R|]. split; [unfold envelope_hilbert_range, envelope_hilbert; cbn [unpack_range bind fst snd]; now rewrite R|].
  unfold dominant_wavenumber_range, dominant_wavenumber_fourier. cbn [unpack_range bind fst snd as_index wnum_incr].
  set (F := fun x : vec => do k <- argmax (py_slice x (slice_pos (length x) (Z.of_nat kmin)) (slice_pos (length x) (Z.of_nat kmax + 1))); Ok (INR k)).
  set (k2 := fun k_dom : vec => match smooth with None => Ok (A1 k_dom) | Some w => filter_meridional g (A1 k_dom) w end).
  assert (A : forall (m : res mat), bind m (fun p => bind (res_map F p) k2) = bind (bind m (res_map F)) k2) by (intros [m|e]; reflexivity).
  change (bind (res_map (fun x => do p <- power x; do k <- argmax (py_slice p kmin (kmax + 1)); Ok (INR k)) f) k2
    = bind (res_map power f) (fun p => bind (res_map F p) k2)).
  rewrite A, res_map_two by (apply (power_ok nr nc); assumption). f_equal. apply res_map_ext_in. intros x Hx.
  pose proof (proj1 (Forall_forall _ _) (proj2 Sf) x Hx) as L. cbv beta in L.
  rewrite power_form by (destruct x; [cbn in L; lia|discriminate]). cbn [bind]. unfold F.
  rewrite tab_length, !py_slice_tab. unfold slice_pos. destruct (Z.ltb_spec (Z.of_nat kmax + 1) 0); [lia|]. destruct (Z.ltb_spec (Z.of_nat kmin) 0); [lia|].
  destruct (Nat.le_gt_cases (length x / 2 + 1) kmin) as [G|G].
  - match goal with |- bind (argmax (tab ?n _)) _ = bind (argmax (tab ?m _)) _ => replace n with 0%nat by lia; replace m with 0%nat by lia end. reflexivity.
  - replace (Z.to_nat (Z.min (Z.of_nat kmin) (Z.of_nat (length x / 2 + 1)))) with kmin by lia.
    match goal with |- bind (argmax (tab ?n _)) _ = bind (argmax (tab ?m _)) _ => replace m with n by lia end. reflexivity.
Qed.
Print Assumptions C123_natural.

Example C123_nonvacuous : shaped 1 (2 * 4) [tab 8 (zonal_wave 8 1 3 4)] /\ remains 4 1 20 3 /\ ~ remains 4 (-2) 20 2 /\ remains 4 (-2) 20 3
  /\ remains 4 1 (-2) 3 /\ ~ remains 4 1 (-2) 4 /\ (forall k, ~ remains 4 1 (-1) k) /\ asked_for 1 20 3 /\ ~ asked_for 1 20 0.
Proof.
  split; [split; [reflexivity|repeat constructor]|]. unfold remains, asked_for, counted. cbn. repeat split; try lia. all: intros; lia.
Qed.
