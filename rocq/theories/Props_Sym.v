(** Theorems on symmetries of the contour-based diagnostics: C109, C110. *)
From Coq Require Export String.
From Verif Require Import Base Model_Grid Model_Quad Model_Falwa Spec_Grid Spec_Quad Spec_Falwa Spec_Sym Spec_Units Proofs_Base Proofs_Grid
  Proofs_Sym Proofs_Units Props_Falwa.
From Verif Require Import Model_Region.
From Coq Require Import List Lia Lra.
Open Scope R_scope.

Lemma mk_grid_nlat_pos res rs om nt g : mk_grid res rs om nt = Ok g -> (0 < g_nlat g)%nat.
Proof. intros H. destruct (mk_grid_facts _ _ _ _ _ H) as [_ _ _ _ _ L4 L3 _ _ _ _ _]. lia. Qed.

(** ** C109 *)
(** Renumbering the longitudes of the PV renumbers the local wave activity in the
    same way, with and without interpolation, and whether the computation fails
    does not depend on it. *)
Theorem C109_falwa res rs om nt g p pv levels qd : mk_grid res rs om nt = Ok g ->
  shaped (g_nlat g) (g_nlon g) pv -> permutes (g_nlon g) p ->
  falwa_contours g (relabel 0 p pv) levels qd = on_ok (fun r => (relabel 0 p (fst r), snd r)) (falwa_contours g pv levels qd)
  /\ falwa g (relabel 0 p pv) levels qd = on_ok (relabel None p) (falwa g pv levels qd).
Proof. intros Hg S P. pose proof (mk_grid_nlat_pos _ _ _ _ _ Hg). split; [now apply relabel_falwa_contours|now apply relabel_falwa]. Qed.
Print Assumptions C109_falwa.
(** The wave activity of latitude circles, the zonalized profile and integrals
    over the sphere do not depend on the order of the longitudes; the last three
    also for fields that cover only part of the longitudes. *)
Theorem C109_fawa res rs om nt g p pv levels qd : mk_grid res rs om nt = Ok g ->
  shaped (g_nlat g) (g_nlon g) pv -> permutes (g_nlon g) p -> fawa g (relabel 0 p pv) levels qd = fawa g pv levels qd.
Proof. intros Hg S P. pose proof (mk_grid_nlat_pos _ _ _ _ _ Hg). now apply relabel_fawa. Qed.
Print Assumptions C109_fawa.
Theorem C109_zonalize res rs om nt g p nc pv levels qd : mk_grid res rs om nt = Ok g ->
  shaped (g_nlat g) nc pv -> permutes nc p ->
  zonalize g (relabel 0 p pv) levels qd = zonalize g pv levels qd
  /\ zonalize_contours g (relabel 0 p pv) levels qd = zonalize_contours g pv levels qd.
Proof. intros Hg S P. pose proof (mk_grid_nlat_pos _ _ _ _ _ Hg). split; [now apply (relabel_zonalize g p nc)|now apply (relabel_zonalize_contours g p nc)]. Qed.
Print Assumptions C109_zonalize.
Theorem C109_quad res rs om nt g p nc y z meth : mk_grid res rs om nt = Ok g ->
  shaped (g_nlat g) nc y -> shaped (g_nlat g) nc z -> permutes nc p ->
  quad g (A2 (relabel 0 p y)) (Some (relabel 0 p z)) meth = quad g (A2 y) (Some z) meth
  /\ quad_meridional g (A2 (relabel 0 p y)) (Some (relabel 0 p z)) meth = on_ok (reorder 0 p) (quad_meridional g (A2 y) (Some z) meth).
Proof. intros Hg Sy Sz P. pose proof (mk_grid_nlat_pos _ _ _ _ _ Hg). split; [now apply (relabel_quad g p nc)|now apply (relabel_quad_meridional g p nc)]. Qed.
Print Assumptions C109_quad.
(** Rotations are renumberings. *)
Theorem C109_rotation n k : (0 < n)%nat -> permutes n (fun j => ((j + k) mod n)%nat).
Proof.
  intros Hn. split; [intros; apply Nat.mod_upper_bound; lia|]. intros i j Hi Hj E.
  assert (M : forall x, ((x + k) mod n = x + k - n * ((x + k) / n))%nat) by (intros x; pose proof (Nat.div_mod (x + k) n ltac:(lia)); lia).
  assert (D : forall x, (x + k = n * ((x + k) / n) + (x + k) mod n)%nat) by (intros x; apply Nat.div_mod; lia).
  pose proof (D i) as Di. pose proof (D j) as Dj. rewrite E in Di. set (u := ((i + k) / n)%nat) in *. set (v := ((j + k) / n)%nat) in *.
  destruct (Nat.lt_trichotomy u v) as [L|[L|L]]; [|rewrite L in Di; lia|].
  - assert (n * u + n <= n * v)%nat by nia. lia.
  - assert (n * v + n <= n * u)%nat by nia. lia.
Qed.
Print Assumptions C109_rotation.

(** A PV anomaly at the first longitude moves to the last of four if everything
    is rotated westward; its wave activity is defined, nonzero and moves along. *)
Example C109_nonvacuous : permutes (g_nlon (gridA 1)) (fun j => ((j + 1) mod 4)%nat)
  /\ shaped (g_nlat (gridA 1)) (g_nlon (gridA 1)) bump
  /\ mget bump 1 0 = 1 /\ mget bump 1 3 = 0
  /\ mget (relabel 0 (fun j => ((j + 1) mod 4)%nat) bump) 1 3 = 1 /\ mget (relabel 0 (fun j => ((j + 1) mod 4)%nat) bump) 1 0 = 0
  /\ exists f, falwa (gridA 1) bump LNone "sptrapz" = Ok f /\ shaped 3 4 f.
Proof.
  split; [apply (C109_rotation 4 1); lia|]. split; [apply (shaped_mat_of 3 4)|]. do 4 (split; [reflexivity|]).
  assert (Hg : mk_grid 90 1 0 None = Ok (gridA 1)) by (apply gridA_ok; lra).
  destruct (C69_defined _ _ _ _ _ bump LNone "sptrapz" Hg (or_intror eq_refl) (shaped_mat_of 3 4 _)) as [D _].
  destruct (D I) as [_ [f [E F]]]. now exists f.
Qed.

(** ** C110 *)
(** Wave activity has the unit of the PV and does not depend on the zero of the
    PV scale: after the change of units q' = a q + b with a > 0 (prescribed
    contour levels converted likewise) falwa and fawa are multiplied by a, at the
    same equivalent latitudes. *)
Theorem C110_falwa g a b pv levels qd : 0 < a ->
  falwa_contours g (mmap (affine a b) pv) (convert_levels a b levels) qd
    = on_ok (fun r => (mmap (Rmult a) (fst r), snd r)) (falwa_contours g pv levels qd)
  /\ falwa g (mmap (affine a b) pv) (convert_levels a b levels) qd
    = on_ok (map (map (option_map (Rmult a)))) (falwa g pv levels qd).
Proof. intros Ha. split; [now apply falwa_contours_affine|now apply falwa_affine]. Qed.
Print Assumptions C110_falwa.
Theorem C110_fawa g a b pv levels qd : 0 < a ->
  fawa g (mmap (affine a b) pv) (convert_levels a b levels) qd = on_ok (map (Rmult a)) (fawa g pv levels qd).
Proof. intros Ha. now apply fawa_affine. Qed.
Print Assumptions C110_fawa.
(** The zonalized profile is converted like the field and the equivalent
    latitudes of its contours do not change. *)
Theorem C110_zonalize g a b field levels qd : 0 < a ->
  zonalize g (mmap (affine a b) field) (convert_levels a b levels) qd = on_ok (map (affine a b)) (zonalize g field levels qd)
  /\ zonalize_contours g (mmap (affine a b) field) (convert_levels a b levels) qd
    = on_ok (fun r => (map (affine a b) (fst r), snd r)) (zonalize_contours g field levels qd).
Proof. intros Ha. split; [now apply zonalize_affine|now apply contours_affine]. Qed.
Print Assumptions C110_zonalize.
(** A change of units that also moves the zero, for a PV field with positive wave
    activity at every longitude. *)
Example C110_nonvacuous : 0 < 2 /\ exists g pv q r y, mk_grid 7 1 1 None = Ok g
  /\ falwa_contours g pv (LArr [q]) "sptrapz" = Ok ([r], [y]) /\ Forall (fun x => 0 < x) r /\ length r = 51%nat
  /\ falwa_contours g (mmap (fun x => 2 * x + 1) pv) (LArr [2 * q + 1]) "sptrapz" = Ok ([map (fun x => 2 * x) r], [y]).
Proof.
  split; [lra|]. destruct grid7 as [g [Hg [Hlon _]]]. destruct (C70_refuted _ _ _ _ _ Hg seven) as [p [q [r [y [_ [_ [E [L Q]]]]]]]].
  exists g. eexists. exists q, r, y. split; [exact Hg|]. split; [exact E|]. split; [exact Q|]. split; [now rewrite L|].
  destruct (C110_falwa g 2 1 (mat_of (g_nlat g) (g_nlon g) (fun i _ => p i)) (LArr [q]) "sptrapz" ltac:(lra)) as [F _]. rewrite E in F. exact F.
Qed.
