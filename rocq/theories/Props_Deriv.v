(** Finite-difference meridional derivative (C17-C19). *)
From Coq Require Export String.
From Verif Require Import Base Model_Grid Model_Region Model_Deriv Spec_Grid Spec_Deriv.
From Verif Require Import Proofs_Base Proofs_Grid Proofs_Region Proofs_Deriv.
From Coquelicot Require Import Coquelicot.
From Coq Require Import Lia Lra.
Open Scope R_scope.

(** C17, linearity *)
Theorem C17_linear_profile : forall g,
  forall o a v1 v2 c1 c2, denotes a o -> (S (ord o) <= g_nlat g)%nat ->
  length v1 = g_nlat g -> length v2 = g_nlat g ->
  exists d1 d2, derivative_meridional g (A1 v1) a = Ok (A1 d1) /\ derivative_meridional g (A1 v2) a = Ok (A1 d2)
    /\ derivative_meridional g (A1 (vadd (vscale c1 v1) (vscale c2 v2))) a = Ok (A1 (vadd (vscale c1 d1) (vscale c2 d2))).
Proof. exact linear_1d. Qed.
Print Assumptions C17_linear_profile.

Theorem C17_linear_field : forall g,
  forall o a nc m1 m2 c1 c2, denotes a o -> (S (ord o) <= g_nlat g)%nat ->
  shaped (g_nlat g) nc m1 -> shaped (g_nlat g) nc m2 ->
  exists d1 d2, derivative_meridional g (A2 m1) a = Ok (A2 d1) /\ derivative_meridional g (A2 m2) a = Ok (A2 d2)
    /\ derivative_meridional g (A2 (madd (mscale c1 m1) (mscale c2 m2))) a = Ok (A2 (madd (mscale c1 d1) (mscale c2 d2))).
Proof. exact linear_2d. Qed.
Print Assumptions C17_linear_field.

(** C17, exactness on polynomials; restricted to resolutions for which the
    nominal spacing is the actual one *)
Theorem C17_exact_profile_partial : forall res rs om nt g, mk_grid res rs om nt = Ok g -> is_integer (180 / res) ->
  forall o a cs, denotes a o -> (S (ord o) <= g_nlat g)%nat -> (length cs <= S (ord o))%nat ->
  exists d, derivative_meridional g (A1 (map (peval cs) (g_phi g))) a = Ok (A1 d)
    /\ length d = g_nlat g /\ nth 0 d 0 = 0 /\ nth (g_nlat g - 1) d 0 = 0
    /\ forall i, (0 < i < g_nlat g - 1)%nat -> is_derive (peval cs) (nth i (g_phi g) 0) (nth i d 0).
Proof. exact poly_1d_exact. Qed.
Print Assumptions C17_exact_profile_partial.

Theorem C17_exact_field_partial : forall res rs om nt g, mk_grid res rs om nt = Ok g -> is_integer (180 / res) ->
  forall o a nc (cs : nat -> list R), denotes a o -> (S (ord o) <= g_nlat g)%nat ->
  (forall j, (j < nc)%nat -> (length (cs j) <= S (ord o))%nat) ->
  exists d, derivative_meridional g (A2 (mat_of (g_nlat g) nc (fun i j => peval (cs j) (nth i (g_phi g) 0)))) a = Ok (A2 d)
    /\ shaped (g_nlat g) nc d
    /\ forall i j, (i < g_nlat g)%nat -> (j < nc)%nat -> is_derive (peval (cs j)) (nth i (g_phi g) 0) (mget d i j).
Proof. exact poly_2d_exact. Qed.
Print Assumptions C17_exact_field_partial.

(** C17 fails for resolution 7: the derivative of the latitude itself is 36/35. *)
Theorem C17_exact_refuted : exists g d, mk_grid 7 1 1 None = Ok g
  /\ derivative_meridional g (A1 (g_phi g)) ONone = Ok (A1 d)
  /\ (forall i, (0 < i < g_nlat g - 1)%nat -> nth i d 0 = 36 / 35)
  /\ forall x, is_derive (fun t => t) x 1.
Proof. exact poly_refuted. Qed.
Print Assumptions C17_exact_refuted.

Example C17_nonvacuous : (exists g, mk_grid 10 6371200 (7292 / 100000000) None = Ok g /\ (5 <= g_nlat g)%nat)
  /\ is_integer (180 / 10) /\ denotes ONone O4 /\ denotes (ONum 2) O2
  /\ is_derive (peval [1; 2; 3; 0; 5]) 1 28.
Proof.
  split.
  { destruct grid10 as [g [Hg [H1 H2]]]. exists g. split; [exact Hg|]. lia. }
  split; [exists 18%Z; lra|]. split; [now right|]. split; [reflexivity|].
  replace 28 with (nth 1 [1; 2; 3; 0; 5] 0 + 2 * nth 2 [1; 2; 3; 0; 5] 0 * 1 + 3 * nth 3 [1; 2; 3; 0; 5] 0 * 1 ^ 2
    + 4 * nth 4 [1; 2; 3; 0; 5] 0 * 1 ^ 3) by (simpl; ring).
  apply peval5_derive. simpl. lia.
Qed.

(** C18: error bounds with explicit constants (1 for order 2, 17/3 for order 4),
    for resolutions for which the nominal spacing is the actual one. *)
Theorem C18_accuracy_profile_partial : forall res rs om nt g, mk_grid res rs om nt = Ok g ->
  forall o a (f : R -> R) M, denotes a o -> (S (ord o) <= g_nlat g)%nat ->
  is_integer (180 / res) -> smooth_bounded (ord o) f M ->
  exists d, derivative_meridional g (A1 (map f (g_phi g))) a = Ok (A1 d)
    /\ length d = g_nlat g
    /\ forall i, (0 < i < g_nlat g - 1)%nat ->
         Rabs (nth i d 0 - Derive f (nth i (g_phi g) 0)) <= cst o * Rabs (g_dphi g) ^ ord o * M.
Proof. exact smooth_1d. Qed.
Print Assumptions C18_accuracy_profile_partial.

Theorem C18_accuracy_field_partial : forall res rs om nt g, mk_grid res rs om nt = Ok g ->
  forall o a nc (f : nat -> R -> R) M, denotes a o -> (S (ord o) <= g_nlat g)%nat ->
  is_integer (180 / res) -> (forall j, (j < nc)%nat -> smooth_bounded (ord o) (f j) M) ->
  exists d, derivative_meridional g (A2 (mat_of (g_nlat g) nc (fun i j => f j (nth i (g_phi g) 0)))) a = Ok (A2 d)
    /\ shaped (g_nlat g) nc d
    /\ forall i j, (i < g_nlat g)%nat -> (j < nc)%nat ->
         Rabs (mget d i j - Derive (f j) (nth i (g_phi g) 0)) <= cst o * Rabs (g_dphi g) ^ ord o * M.
Proof. exact smooth_2d. Qed.
Print Assumptions C18_accuracy_field_partial.

(** C18 fails for resolution 7: the third and fifth derivative of the latitude
    vanish but the error is 1/35. *)
Theorem C18_accuracy_refuted : exists g d, mk_grid 7 1 1 None = Ok g
  /\ smooth_bounded 4 (fun t => t) 0
  /\ derivative_meridional g (A1 (map (fun t => t) (g_phi g))) ONone = Ok (A1 d)
  /\ forall i, (0 < i < g_nlat g - 1)%nat ->
       ~ exists C, Rabs (nth i d 0 - Derive (fun t => t) (nth i (g_phi g) 0)) <= C * Rabs (g_dphi g) ^ 4 * 0.
Proof. exact accuracy_refuted. Qed.
Print Assumptions C18_accuracy_refuted.

Example C18_nonvacuous : smooth_bounded 4 sin 1 /\ Derive sin (PI / 3) = 1 / 2.
Proof. exact smooth_example. Qed.

(** C19 *)
Theorem C19_bad_order : forall g f a, f <> AOther -> a <> ONum 2 -> a <> ONum 4 -> a <> ONone ->
  derivative_meridional g f a = Err NotImplementedError.
Proof. exact bad_order. Qed.
Print Assumptions C19_bad_order.

Theorem C19_small_grid : forall g f a o, f <> AOther -> denotes a o -> (g_nlat g < S (ord o))%nat ->
  derivative_meridional g f a = Err AssertionError.
Proof. exact small_grid. Qed.
Print Assumptions C19_small_grid.

Theorem C19_output_shape : forall g f a r, derivative_meridional g f a = Ok r ->
  match f, r with
  | A1 v, A1 d => length d = length v
  | A2 m, A2 d => forall nr nc, (0 < nr)%nat -> shaped nr nc m -> shaped nr nc d
  | _, _ => False
  end.
Proof. exact out_shape. Qed.
Print Assumptions C19_output_shape.

Example C19_nonvacuous : exists g, mk_grid 90 1 0 None = Ok g /\ (g_nlat g < S (ord O4))%nat
  /\ (exists r, derivative_meridional g (A1 [1; 2; 3]) (ONum 2) = Ok r)
  /\ ONum 3 <> ONum 2 /\ ONum 3 <> ONum 4.
Proof.
  exists (gridA 1). split; [apply gridA_ok; lra|]. split; [simpl; lia|]. split.
  - eexists. apply (dm_1d (gridA 1) O2); [reflexivity|simpl; lia|reflexivity].
  - split; intros E; injection E; lra.
Qed.
