(** The local dominant wavenumber: proofs. *)
From Coq Require Export String.
From Verif Require Import Base Spec_Filter Spec_Wavelet Model_Grid Model_Filter Model_Fourier Model_Wavelet Proofs_Base Proofs_Grid Proofs_StateList Proofs_Plot Proofs_Filter Proofs_Fourier Props_Fourier Props_Filter.
From Verif Require Import Model_Region.
From Coq Require Import List Lia Lra.
Open Scope R_scope.

Lemma res_map_seq {A} (f : nat -> res A) (r : nat -> A) n : (forall i, (i < n)%nat -> f i = Ok (r i)) -> res_map f (seq 0 n) = Ok (tab n r).
Proof.
  intros H. apply res_map_ok. unfold tab. assert (Q : forall a, (forall i, (a <= i < a + n)%nat -> f i = Ok (r i)) -> Forall2 (fun a b => f a = Ok b) (seq a n) (map r (seq a n))).
  { induction n as [|n IH]; intros a Ha; [constructor|]. cbn [seq map]. constructor; [apply Ha; lia|].
    apply IH; [intros i Hi|intros i Hi]; [apply H; lia|apply Ha; lia]. }
  apply Q. intros i Hi. apply H. lia.
Qed.
Lemma scales_tab : scales = tab 120 scale_no.
Proof.
  unfold scales, linspace_end, tab. rewrite map_map. apply map_ext. intros i. unfold scale_no. do 2 f_equal.
  replace (INR (120 - 1)) with 119 by (change (120 - 1)%nat with 119%nat; rewrite INR_IZR_INZ; reflexivity). field.
Qed.
Lemma scale_pos m : 0 < scale_no m.
Proof. unfold scale_no. pose proof (exp_pos (6 * INR m / 119 * ln 2)). unfold Rpower. lra. Qed.
Lemma cabs2 z : cabs z ^ 2 = fst z ^ 2 + snd z ^ 2.
Proof. unfold cabs. apply pow2_sqrt. nra. Qed.
Lemma nth_py_middle {A} (d : A) n (x : list A) j : length x = (3 * n)%nat -> (j < n)%nat -> nth j (py_middle n x) d = nth (n + j) x d.
Proof.
  intros L Hj. unfold py_middle. destruct (Nat.eqb_spec n 0); [lia|]. unfold py_slice.
  transitivity (nth j (skipn n x) d).
  - rewrite <- (firstn_skipn (length x - n - n) (skipn n x)) at 2. rewrite app_nth1; [reflexivity|]. rewrite firstn_length_le by (rewrite skipn_length; lia). lia.
  - rewrite <- (firstn_skipn n x) at 2. rewrite app_nth2; rewrite firstn_length_le by lia; [|lia]. f_equal. lia.
Qed.
Lemma py_middle_length {A} n (x : list A) : length x = (3 * n)%nat -> length (py_middle n x) = n.
Proof.
  intros L. unfold py_middle. destruct (Nat.eqb_spec n 0); [now subst|]. unfold py_slice. rewrite firstn_length_le by (rewrite skipn_length; lia). lia.
Qed.
Lemma thrice x : x ++ x ++ x = three_periods x.
Proof.
  unfold three_periods. destruct (Nat.eq_dec (length x) 0) as [E|E]; [destruct x; [reflexivity|discriminate]|].
  apply (nth_ext _ _ 0 0); [rewrite !app_length, tab_length; lia|]. intros j Hj. rewrite !app_length in Hj. rewrite tab_nth by lia.
  destruct (Nat.lt_ge_cases j (length x)) as [H1|H1].
  - rewrite app_nth1 by exact H1. now rewrite Nat.mod_small.
  - rewrite app_nth2 by exact H1. destruct (Nat.lt_ge_cases (j - length x) (length x)) as [H2|H2].
    + rewrite app_nth1 by exact H2. f_equal. apply (Nat.mod_unique _ _ 1); lia.
    + rewrite app_nth2 by exact H2. f_equal. apply (Nat.mod_unique _ _ 2); lia.
Qed.

Section Core.
Variable W : pywt.
Hypothesis WL : forall x s, length (cwt_row W x s) = length x.
Variables (nr n : nat) (x : mat).
Hypothesis Sx : shaped nr n x.
Hypothesis Nr : (0 < nr)%nat.
Hypothesis Nn : (0 < n)%nat.
Definition P (m i j : nat) : R := power_at (cwt_row W (three_periods (nth i x [])) (scale_no m)) (n + j).
Lemma wp_form : wavelet_power W x = tab 120 (fun m => mat_of nr n (P m)).
Proof.
  unfold wavelet_power, wavelet_coef. rewrite scales_tab. unfold tab. rewrite !map_map. apply map_ext. intros m.
  assert (E : ncols (map (fun r : vec => r ++ r ++ r) x) = (n * 3)%nat).
  { apply (shaped_ncols nr); [|exact Nr]. destruct Sx as [L F]. split; [now rewrite map_length|]. apply Forall_map. eapply Forall_impl; [|exact F].
    intros r Hr. cbv beta in *. rewrite !app_length. lia. }
  rewrite E, Nat.div_mul by lia. rewrite !map_map.
  destruct Sx as [L F]. apply (nth_ext _ _ [] []); [rewrite map_length; unfold mat_of; now rewrite tab_length|].
  intros i Hi. rewrite map_length in Hi. rewrite (nth_map_lt _ _ _ [] _) by exact Hi. unfold mat_of. rewrite tab_nth by lia.
  assert (Li : length (nth i x []) = n) by (apply (shaped_row nr n x i []); [split; assumption|lia]).
  rewrite thrice. assert (Lc : length (cwt_row W (three_periods (nth i x [])) (scale_no m)) = (3 * n)%nat) by (rewrite WL; unfold three_periods; rewrite tab_length; lia).
  apply (nth_ext _ _ 0 0); [rewrite map_length, tab_length; now apply py_middle_length|].
  intros j Hj. rewrite map_length, py_middle_length in Hj by exact Lc. rewrite tab_nth by exact Hj.
  rewrite (nth_map_lt _ _ _ (0, 0) _) by (rewrite py_middle_length; assumption). rewrite cabs2, !(nth_py_middle _ n) by assumption. reflexivity.
Qed.
Definition sel (i j : nat) : nat := match argmax (tab 120 (fun m => P m i j)) with Ok r => r | Err _ => 0%nat end.
Lemma sel_spec i j : argmax (tab 120 (fun m => P m i j)) = Ok (sel i j) /\ (sel i j < 120)%nat
  /\ (forall m, (m < 120)%nat -> P m i j <= P (sel i j) i j) /\ (forall m, (m < sel i j)%nat -> P m i j < P (sel i j) i j).
Proof.
  unfold sel. destruct (argmax_tab 120 (fun m => P m i j)) as [r [-> Q]]; [apply Nat.lt_0_succ|]. split; [reflexivity|exact Q].
Qed.
Lemma argmax_form : argmax_first_axis (wavelet_power W x) = Ok (tab nr (fun i => tab n (sel i))).
Proof.
  unfold argmax_first_axis. rewrite wp_form. rewrite tab_nth by lia.
  rewrite (shaped_ncols nr n _ (shaped_mat_of _ _ _) Nr). rewrite (proj1 (shaped_mat_of nr n (P 0))).
  apply res_map_seq. intros i Hi. apply res_map_seq. intros j Hj. rewrite <- (proj1 (sel_spec i j)). f_equal.
  unfold tab at 1. rewrite map_map. apply map_ext. intros m. now rewrite mget_mat_of.
Qed.
End Core.

Lemma wavenum_nth W g m : (m < 120)%nat -> nth m (wavenum W g) 0 = wavenumber_of (central_frequency W) (g_nlon g) (scale_no m).
Proof.
  intros Hm. unfold wavenum. rewrite scales_tab. rewrite (nth_map_lt _ _ _ 0 _) by (rewrite tab_length; exact Hm). rewrite tab_nth by exact Hm.
  unfold scale2frequency, wavenumber_of. pose proof (scale_pos m). field. lra.
Qed.
