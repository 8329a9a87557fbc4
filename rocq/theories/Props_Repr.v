(** Textual representations (C100-C102). *)
From Coq Require Export String.
From Verif Require Import Base Model_Grid Model_Format Model_Time Model_Spectral Model_State Model_Run Model_RHS Model_Repr
  Spec_Spectral Spec_State Spec_Instance Spec_Repr Proofs_Base Proofs_Grid Proofs_Instance Proofs_Repr Props_Format Props_Run.
From Coquelicot Require Import Complex.
From Coq Require Import List Lia Lra.
Open Scope R_scope.

(** ** C100: the equation shown by repr(model)
    The text says that the model integrates dq/dt = -div(u q) - kappa nabla^e q + RHS *)
Definition shows_line (before after t : text) (e : Z) : Prop := exists first rest, single_line first /\
  t = first ++ newline :: before ++ sup e ++ after ++ newline :: rest.
Definition shows_equation : text -> Z -> Prop := shows_line (txt "    ∂q/∂t = -∇(u·q) - κ∇") (txt "q + RHS ").
Lemma no_newline t : forallb (fun c => negb (Z.eqb c 10)) t = true -> single_line t.
Proof. intros H I. rewrite forallb_forall in H. apply H in I. discriminate I. Qed.
Lemma second_line t0 t1 t2 l3 l4 e : single_line t0 -> single_line t1 -> single_line t2 ->
  shows_line t1 t2 (join_lines [t0; t1 ++ sup e ++ t2; l3; l4]) e
  /\ forall e', shows_line t1 t2 (join_lines [t0; t1 ++ sup e ++ t2; l3; l4]) e' -> e' = e.
Proof.
  intros L0 S1 S2. assert (L1 : forall e, single_line (t1 ++ sup e ++ t2)) by (intros e0; apply single_app; [exact S1|apply single_app; [apply single_sup|exact S2]]).
  unfold shows_line. split.
  - eexists _, _. split; [exact L0|]. cbn [join_lines]. rewrite <- !app_assoc. reflexivity.
  - intros e' [first [rest [S E]]]. cbn [join_lines] in E. apply cut_line in E; [|exact L0|exact S]. destruct E as [_ E].
    replace (t1 ++ sup e' ++ t2 ++ newline :: rest) with ((t1 ++ sup e' ++ t2) ++ newline :: rest) in E by now rewrite <- !app_assoc.
    apply cut_line in E; [|apply L1|apply L1]. destruct E as [E _]. apply app_inv_head in E. apply app_inv_tail in E.
    symmetry. now apply (proj2 (proj2 C79_faithful)).
Qed.
Lemma repr_literals : single_line (txt "<barotropic.BarotropicModel> integrating") /\ single_line (txt "    ∂q/∂t = -∇(u·q) - κ∇") /\ single_line (txt "q + RHS ").
Proof. split; [|split]; apply no_newline; vm_compute; reflexivity. Qed.
(** the characters of the literals: the model's reading of UTF-8 undoes the encoding *)
Theorem C100_characters : forall cs n, Forall (fun c => (0 <= c < 65536)%Z) cs -> (length (flat_map utf8_bytes cs) <= n)%nat -> utf8 n (flat_map utf8_bytes cs) = cs.
Proof.
  induction cs as [|c cs IH]; intros n F Hn; [destruct n; reflexivity|]. inversion F as [|? ? Hc F']; subst. cbn [flat_map] in *. rewrite app_length in Hn.
  assert (M64 : forall x, (0 <= x mod 64 < 64)%Z) by (intros; apply Z.mod_pos_bound; lia).
  assert (D64 : forall x, x = (64 * (x / 64) + x mod 64)%Z) by (intros; apply Z.div_mod; lia).
  unfold utf8_bytes in *. destruct (Z.ltb_spec c 128) as [A|A]; [|destruct (Z.ltb_spec c 2048) as [B|B]]; cbn [length app] in *; (destruct n as [|n]; [lia|]); cbn [utf8].
  - destruct (Z.ltb_spec c 128); [|lia]. rewrite IH by (assumption || lia). reflexivity.
  - pose proof (D64 c). pose proof (M64 c). assert (0 <= c / 64 < 32)%Z by lia. destruct (Z.ltb_spec (192 + c / 64) 128); [lia|]. destruct (Z.ltb_spec (192 + c / 64) 224); [|lia].
    rewrite IH by (assumption || lia). f_equal. lia.
  - pose proof (D64 c). pose proof (M64 c). pose proof (D64 (c / 64)%Z). pose proof (M64 (c / 64)%Z).
    assert (E : (c / 4096 = c / 64 / 64)%Z) by (rewrite Z.div_div by lia; reflexivity). rewrite E.
    assert (0 <= c / 64 / 64 < 16)%Z by lia. destruct (Z.ltb_spec (224 + c / 64 / 64) 128); [lia|]. destruct (Z.ltb_spec (224 + c / 64 / 64) 224); [lia|].
    rewrite IH by (assumption || lia). f_equal. lia.
Qed.
Print Assumptions C100_characters.
(** the bytes of the sources: partial derivative, nabla, minus, kappa, degree *)
Example C100_characters_nonvacuous : txt "∂∇⁻κ°q" = [8706; 8711; 8315; 954; 176; 113]%Z
  /\ bytes "∂∇⁻κ°q" = flat_map utf8_bytes [8706; 8711; 8315; 954; 176; 113]%Z.
Proof. split; vm_compute; reflexivity. Qed.

Theorem C100_shown : forall K str5e rhs_text (M : bmodel K), exists e, shows_equation (barotropic_model_repr str5e rhs_text M) e
  /\ e = (2 * Z.of_nat (m_order M))%Z /\ forall e', shows_equation (barotropic_model_repr str5e rhs_text M) e' -> e' = e.
Proof.
  intros K str rt M. destruct repr_literals as [L0 [L1 L2]]. unfold barotropic_model_repr, shows_equation.
  destruct (second_line _ _ _ (txt "    where κ   = " ++ str (m_coeff M) ++ txt " m" ++ sup (2 * Z.of_nat (m_order M)) ++ txt "s⁻¹") (txt "    and   RHS = " ++ rt) (2 * Z.of_nat (m_order M))%Z L0 L1 L2) as [A B].
  eexists. split; [exact A|]. split; [reflexivity|exact B].
Qed.
Print Assumptions C100_shown.

(** one Euler step of h seconds of the equation with the diffusion term taken at the new time *)
Definition steps_with (diffusion : nat -> C -> C) (h : R) (n : nat -> nat) (ns : nat) (q tendency q_new : list C) : Prop :=
  forall k, (k < ns)%nat -> coef q_new k = Cplus (coef q k) (Cmult (RtoC h) (Cplus (coef tendency k) (diffusion (n k) (coef q_new k)))).

Lemma neg_pow_even x p : Nat.Even p -> (- x) ^ p = x ^ p.
Proof. intros [m ->]. rewrite !pow_mult. f_equal. ring. Qed.
Lemma neg_pow_odd x p : Nat.Odd p -> (- x) ^ p = - x ^ p.
Proof. intros [m ->]. rewrite !pow_add, !pow_mult. replace ((- x) ^ 2) with (x ^ 2) by ring. ring. Qed.
Lemma half_exponent p : Z.to_nat (2 * Z.of_nat p / 2) = p.
Proof. rewrite Z.mul_comm, Z.div_mul by discriminate. apply Nat2Z.id. Qed.
Lemma eig_form r n : INR n * (INR n + 1) / r ^ 2 = eigenvalue r n.
Proof. unfold eigenvalue. f_equal. ring. Qed.

(** For even orders the model integrates the equation shown ... *)
Theorem C100_equation_partial : forall res rs om nt g, mk_grid res rs om nt = Ok g ->
  forall K T (M : bmodel K) (now new : state K) dt h x str5e rhs_text e, s_grid now = g -> m_bg M = None -> Nat.Even (m_order M) ->
  euler T M now dt = Ok new -> to_seconds dt = Ok h -> pv_tendency_spectral T M now = Ok x -> 0 <= h * m_coeff M ->
  length (s_pvs now) = nspec (g_ntrunc g) -> length x = nspec (g_ntrunc g) ->
  shows_equation (barotropic_model_repr str5e rhs_text M) e ->
  steps_with (fun n q => Copp (Cmult (RtoC (m_coeff M)) (nabla_power rs n e q))) h (degree (g_ntrunc g)) (nspec (g_ntrunc g)) (s_pvs now) x (s_pvs new).
Proof.
  intros res rs om nt g Hg K T M now new dt h x str rt e Eg Ebg Ev He Hh Hx Hp L1 L2 Sh.
  destruct (C100_shown K str rt M) as [e0 [_ [-> U]]]. rewrite (U e Sh). clear U Sh e.
  destruct (C88_euler res rs om nt g Hg K T M now new dt Eg Ebg He) as [h' [x' [Hh' [Hx' [_ [_ H]]]]]].
  assert (h' = h) as -> by congruence. assert (x' = x) as -> by congruence. destruct (H Hp L1 L2) as [_ H']. intros k Hk. specialize (H' k Hk).
  unfold nabla_power. rewrite half_exponent, neg_pow_even, eig_form by exact Ev. set (l := eigenvalue _ _ ^ _) in *.
  destruct (coef (s_pvs new) k) as [a1 a2], (coef (s_pvs now) k) as [b1 b2], (coef x k) as [c1 c2]. unfold Cplus, Cmult, Copp, RtoC in *. cbn [fst snd] in *.
  injection H' as E1 E2. f_equal; [ring_simplify in E1|ring_simplify in E2]; [ring_simplify|ring_simplify]; lra.
Qed.
Print Assumptions C100_equation_partial.

(** ... for odd orders (diffusion_order=1 is ordinary diffusion) the sign shown is wrong: the model
    integrates the equation with + kappa nabla^e q, and not the one shown *)
Theorem C100_equation_refuted : forall res rs om nt g, mk_grid res rs om nt = Ok g ->
  forall K T (M : bmodel K) (now new : state K) dt h x str5e rhs_text e, s_grid now = g -> m_bg M = None -> Nat.Odd (m_order M) ->
  euler T M now dt = Ok new -> to_seconds dt = Ok h -> pv_tendency_spectral T M now = Ok x -> 0 < h * m_coeff M ->
  length (s_pvs now) = nspec (g_ntrunc g) -> length x = nspec (g_ntrunc g) ->
  shows_equation (barotropic_model_repr str5e rhs_text M) e ->
  steps_with (fun n q => Cmult (RtoC (m_coeff M)) (nabla_power rs n e q)) h (degree (g_ntrunc g)) (nspec (g_ntrunc g)) (s_pvs now) x (s_pvs new)
  /\ forall k, (k < nspec (g_ntrunc g))%nat -> (0 < degree (g_ntrunc g) k)%nat -> coef (s_pvs new) k <> RtoC 0 ->
     ~ steps_with (fun n q => Copp (Cmult (RtoC (m_coeff M)) (nabla_power rs n e q))) h (degree (g_ntrunc g)) (nspec (g_ntrunc g)) (s_pvs now) x (s_pvs new).
Proof.
  intros res rs om nt g Hg K T M now new dt h x str rt e Eg Ebg Ev He Hh Hx Hp L1 L2 Sh.
  destruct (C100_shown K str rt M) as [e0 [_ [-> U]]]. rewrite (U e Sh). clear U Sh e.
  destruct (C88_euler res rs om nt g Hg K T M now new dt Eg Ebg He) as [h' [x' [Hh' [Hx' [_ [_ H]]]]]].
  assert (h' = h) as -> by congruence. assert (x' = x) as -> by congruence. destruct (H (Rlt_le _ _ Hp) L1 L2) as [_ H'].
  assert (A : steps_with (fun n q => Cmult (RtoC (m_coeff M)) (nabla_power rs n (2 * Z.of_nat (m_order M)) q)) h (degree (g_ntrunc g)) (nspec (g_ntrunc g)) (s_pvs now) x (s_pvs new)).
  { intros k Hk. specialize (H' k Hk). unfold nabla_power. rewrite half_exponent, neg_pow_odd, eig_form by exact Ev. set (l := eigenvalue _ _ ^ _) in *.
    destruct (coef (s_pvs new) k) as [a1 a2], (coef (s_pvs now) k) as [b1 b2], (coef x k) as [c1 c2]. unfold Cplus, Cmult, Copp, RtoC in *. cbn [fst snd] in *.
    injection H' as E1 E2. f_equal; [ring_simplify in E1|ring_simplify in E2]; [ring_simplify|ring_simplify]; lra. }
  split; [exact A|]. intros k Hk Hd Hn B. specialize (A k Hk). specialize (B k Hk).
  assert (Rs : 0 < rs) by (pose proof (gf_rs_pos _ _ _ _ (mk_grid_facts _ _ _ _ _ Hg)); assumption).
  unfold nabla_power in *. rewrite half_exponent, neg_pow_odd, eig_form in * by exact Ev.
  assert (Lp : 0 < eigenvalue rs (degree (g_ntrunc g) k) ^ m_order M).
  { apply pow_lt. unfold eigenvalue. pose proof (lt_0_INR _ Hd). apply Rdiv_lt_0_compat; [nra|nra]. }
  set (l := eigenvalue _ _ ^ _) in *. apply Hn.
  destruct (coef (s_pvs new) k) as [a1 a2], (coef (s_pvs now) k) as [b1 b2], (coef x k) as [c1 c2]. unfold Cplus, Cmult, Copp, RtoC in *. cbn [fst snd] in *.
  injection A as A1 A2. injection B as B1 B2.
  assert (P : 0 < h * m_coeff M * l) by nra.
  f_equal; [assert (Q : h * m_coeff M * l * a1 = 0) by nra|assert (Q : h * m_coeff M * l * a2 = 0) by nra]; apply Rmult_integral in Q; destruct Q as [Q|Q]; auto; lra.
Qed.
Print Assumptions C100_equation_refuted.

(** an ordinary diffusion model and a step whose result has a component of degree 1 *)
Definition ordinary : bmodel numR := mkModel None 1 1 None.
Definition zonal_init : state numR := mkState (d1_grid 1 1) (@VNum numR 0) [RtoC 0; RtoC 5; RtoC 0].
Example C100_nonvacuous : m_bg ordinary = None /\ Nat.Odd (m_order ordinary) /\ Nat.Even (m_order example_model) /\ degree 1 1 = 1%nat
  /\ exists new x, euler d1_family ordinary zonal_init (@VNum numR 1) = Ok new /\ to_seconds (@VNum numR 1) = Ok 1
     /\ pv_tendency_spectral d1_family ordinary zonal_init = Ok x /\ length (s_pvs zonal_init) = nspec 1 /\ length x = nspec 1 /\ coef (s_pvs new) 1 <> RtoC 0.
Proof.
  split; [reflexivity|]. split; [exists 0%nat; reflexivity|]. split; [exists 1%nat; reflexivity|]. split; [reflexivity|].
  destruct (euler d1_family ordinary zonal_init (@VNum numR 1)) as [new|e] eqn:E; [|discriminate E].
  destruct (C88_euler 90 1 1 (Some 1%Z) (d1_grid 1 1) (d1_grid_ok 1 1 ltac:(lra)) numR d1_family ordinary zonal_init new (@VNum numR 1) eq_refl eq_refl E) as [h [x [Hh [Hx [_ [_ H]]]]]].
  exists new, x. split; [reflexivity|]. split; [reflexivity|]. split; [exact Hx|]. split; [reflexivity|].
  assert (h = 1) as -> by (cbn in Hh; congruence). apply Ok_inj in Hx. assert (L : length x = nspec 1) by (rewrite <- Hx; reflexivity). split; [exact L|].
  destruct (H ltac:(cbn; lra) eq_refl L) as [_ H1]. specialize (H1 1%nat ltac:(cbn; lia)). intros Z. rewrite Z in H1.
  assert (X : coef x 1 = RtoC 0).
  { rewrite <- Hx. cbn - [Rinv Rdiv]. unfold RtoC, Copp. cbn. f_equal; try ring. unfold row_mean, row_cos, row_sin, mget. cbn [nth]. repeat match goal with |- context [coriolis ?g ?l] => generalize (coriolis g l); intros ? end. field. }
  rewrite X in H1. change (coef (s_pvs zonal_init) 1) with (RtoC 5) in H1. unfold Cplus, Cmult, RtoC in H1. cbn [fst snd] in H1. injection H1 as H1 _. lra.
Qed.

(** ** C101: the representation of a forcing shows how it is composed *)
Theorem C101_unambiguous : forall K (term_text : obj K -> text) (a b : obj K),
  (forall l, In l (terms_of a) \/ In l (terms_of b) -> plain (term_text l)) ->
  (forall l m, In l (terms_of a) -> In m (terms_of b) -> term_text l = term_text m -> l = m) ->
  rhs_repr term_text a = rhs_repr term_text b -> a = b.
Proof.
  intros K tt a b P Q E. apply (terms_repr tt a) with (b := b) (r := []) (r' := []); [intros l I; apply P; now left|intros l I; apply P; now right|exact Q|exact I|exact I|now rewrite E].
Qed.
Print Assumptions C101_unambiguous.
(** a + b and a * b are shown in the order in which they are written *)
Theorem C101_operators : forall K (term_text : obj K -> text) (a b s p : obj K), is_rhs a = true \/ is_rhs b = true -> op_add a b = Ok s -> op_mul a b = Ok p ->
  rhs_repr term_text s = [40%Z] ++ rhs_repr term_text a ++ [32; 43; 32]%Z ++ rhs_repr term_text b ++ [41%Z]
  /\ rhs_repr term_text p = [40%Z] ++ rhs_repr term_text a ++ [32; 42; 32]%Z ++ rhs_repr term_text b ++ [41%Z].
Proof.
  intros K tt a b s p H HS HP. assert (E : is_rhs a || is_rhs b = true) by (destruct H as [-> | ->]; [reflexivity|apply orb_true_r]).
  unfold op_add in HS. unfold op_mul in HP. rewrite E in HS, HP. injection HS as <-. injection HP as <-. split; reflexivity.
Qed.
Print Assumptions C101_operators.
(** the condition on the terms is needed: a term whose text contains " + " *)
Theorem C101_terms_needed : forall K, exists (term_text : obj K -> text) (a b : obj K), rhs_repr term_text a = rhs_repr term_text b /\ a <> b
  /\ (forall l m, In l (terms_of a) -> In m (terms_of b) -> term_text l = term_text m -> l = m).
Proof.
  intros K. set (tt := fun o : obj K => match o with PNum x => if Req_EM_T x 0 then txt "a" else if Req_EM_T x 1 then txt "b" else if Req_EM_T x 2 then txt "a + b" else txt "b + b" | _ => [] end).
  exists tt, (PSum (PNum 0) (PNum 3)), (PSum (PNum 2) (PNum 1)).
  assert (T0 : tt (PNum 0) = txt "a") by (unfold tt; destruct (Req_EM_T 0 0); [reflexivity|lra]).
  assert (T1 : tt (PNum 1) = txt "b") by (unfold tt; destruct (Req_EM_T 1 0); [lra|]; destruct (Req_EM_T 1 1); [reflexivity|lra]).
  assert (T2 : tt (PNum 2) = txt "a + b") by (unfold tt; destruct (Req_EM_T 2 0); [lra|]; destruct (Req_EM_T 2 1); [lra|]; destruct (Req_EM_T 2 2); [reflexivity|lra]).
  assert (T3 : tt (PNum 3) = txt "b + b") by (unfold tt; destruct (Req_EM_T 3 0); [lra|]; destruct (Req_EM_T 3 1); [lra|]; destruct (Req_EM_T 3 2); [lra|reflexivity]).
  split; [cbn [rhs_repr]; rewrite T0, T1, T2, T3; reflexivity|]. split; [intros E; injection E as E _; lra|].
  intros l m [<-|[<-|[]]] [<-|[<-|[]]]; rewrite ?T0, ?T1, ?T2, ?T3; intros E; discriminate E.
Qed.
Print Assumptions C101_terms_needed.
Definition example_texts (o : obj numR) : text := match o with PNum x => if Req_EM_T x 0 then txt "<function damp at 0x7f>" else txt "<barotropic.rhs.Orography object at 0x5a>" | _ => txt "1e+20" end.
Example C101_nonvacuous :
  let a := PSum (PNum 0) (PProd (PNum 0) (PNum 1)) in let b := PProd (PSum (PNum 0) (PNum 0)) (PNum 1) in
  rhs_repr example_texts a = txt "(<function damp at 0x7f> + (<function damp at 0x7f> * <barotropic.rhs.Orography object at 0x5a>))"
  /\ (forall l, In l (terms_of a) \/ In l (terms_of b) -> plain (example_texts l))
  /\ (forall l m, In l (terms_of a) -> In m (terms_of b) -> example_texts l = example_texts m -> l = m)
  /\ a <> b.
Proof.
  cbv zeta. 
  assert (TA : example_texts (PNum 0) = txt "<function damp at 0x7f>") by (unfold example_texts; destruct (Req_EM_T 0 0); [reflexivity|lra]).
  assert (TB : example_texts (PNum 1) = txt "<barotropic.rhs.Orography object at 0x5a>") by (unfold example_texts; destruct (Req_EM_T 1 0); [lra|reflexivity]).
  split; [cbn [rhs_repr]; rewrite TA, TB; vm_compute; reflexivity|]. split; [|split; [|intros E; discriminate E]].
  - assert (PA : plain (example_texts (PNum 0))) by (rewrite TA; apply cleanb_plain; vm_compute; reflexivity).
    assert (PB : plain (example_texts (PNum 1))) by (rewrite TB; apply cleanb_plain; vm_compute; reflexivity).
    intros l [H|H]; cbn in H; destruct H as [<-|[<-|[<-|[]]]]; assumption.
  - assert (N : example_texts (PNum 0) <> example_texts (PNum 1)) by (rewrite TA, TB; vm_compute; discriminate).
    intros l m [<-|[<-|[<-|[]]]] [<-|[<-|[<-|[]]]] E; try reflexivity; exfalso; now apply N.
Qed.

(** ** C102: the representation of a grid shows what it was made of *)
Definition float_grid (float : R -> Prop) (g : grid) : Prop := float (g_res g) /\ float (g_rsphere g) /\ float (g_omega g).
Lemma grid_lines float str (f1 f2 a1 a2 a3 b1 b2 c1 c2 d1 d2 e1 h1 : text) m1 m2 g1 g2 : faithful float str -> float_grid float g1 -> float_grid float g2 -> (forall x, single_line (str x)) -> Forall single_line [f1; a1; a3; b1; b2; c1; c2; d1; d2; e1; h1] ->
  a2 = [44%Z; 32%Z] -> single_line m1 -> single_line m2 ->
  let lines g m := [f1; a1 ++ nat_text (g_nlat g) ++ a2 ++ nat_text (g_nlon g) ++ a3; b1 ++ str (g_res g) ++ b2; c1 ++ str (g_rsphere g) ++ c2; d1 ++ str (g_omega g) ++ d2; e1 ++ nat_text (g_ntrunc g); h1 ++ m] in
  join_lines (lines g1 m1) = join_lines (lines g2 m2) -> g1 = g2 /\ m1 = m2.
Proof.
  intros Fa [A1 [A2 A3]] [B1 [B2 B3]] Si F Ea M1 M2 lines H.
  assert (L : forall g m, single_line m -> Forall single_line (lines g m)).
  { intros g m Hm. repeat match goal with H : Forall _ (_ :: _) |- _ => inversion H; clear H; subst end. unfold lines.
    assert (C : single_line [44%Z; 32%Z]) by (apply no_newline; reflexivity). assert (I : forall n, single_line (nat_text n)) by (intros n; apply single_int).
    repeat (apply Forall_cons; [repeat apply single_app; auto|]). apply Forall_nil. }
  apply join_inj in H; [|reflexivity|now apply L|now apply L]. unfold lines in H. injection H as E1 E2 E3 E4 E5 E6.
  apply app_inv_head in E1. subst a2. cbn [app] in E1. apply cut_digits in E1; [|apply no_comma|apply no_comma]. destruct E1 as [N1 E1]. injection E1 as E1. apply app_inv_tail in E1.
  apply app_inv_head in E2. apply app_inv_tail in E2. apply app_inv_head in E3. apply app_inv_tail in E3. apply app_inv_head in E4. apply app_inv_tail in E4. apply app_inv_head in E5. apply app_inv_head in E6.
  apply nat_text_inj in N1, E1, E5. apply Fa in E2; [|assumption|assumption]. apply Fa in E3; [|assumption|assumption]. apply Fa in E4; [|assumption|assumption]. split; [|exact E6]. destruct g1, g2. cbn in *. now subst.
Qed.
Theorem C102_identifies : forall float str legfunc1 legfunc2 g1 g2, faithful float str -> float_grid float g1 -> float_grid float g2 -> (forall x, single_line (str x)) -> single_line legfunc1 -> single_line legfunc2 ->
  grid_repr str legfunc1 g1 = grid_repr str legfunc2 g2 -> g1 = g2 /\ legfunc1 = legfunc2.
Proof.
  intros float str m1 m2 g1 g2 Fa F1 F2 Si M1 M2 H. unfold grid_repr in H. revert H. apply (grid_lines float); auto.
  repeat (apply Forall_cons; [apply no_newline; vm_compute; reflexivity|]). apply Forall_nil.
Qed.
Print Assumptions C102_identifies.
Definition whole (x : R) : Prop := exists z, x = IZR z.
Example C102_nonvacuous : faithful whole (fun x => int_text (Int_part x)) /\ (forall x, single_line (int_text (Int_part x)))
  /\ float_grid whole (mkGrid 45 2 3 8 5 4) /\ single_line (txt "stored")
  /\ grid_repr (fun x => int_text (Int_part x)) (txt "stored") (mkGrid 45 2 3 8 5 4) = txt "<barotropic.Grid> with" ++ newline :: txt "    (nlat, nlon) = (5, 8)" ++ newline :: txt "    resolution   = 45°"
     ++ newline :: txt "    rsphere      = 2 m" ++ newline :: txt "    omega        = 3 s⁻¹" ++ newline :: txt "    ntrunc       = 4" ++ newline :: txt "    legfunc      = stored".
Proof.
  assert (I : forall z, Int_part (IZR z) = z) by (intros z; apply Int_part_unique; lra).
  split; [intros x y [a ->] [b ->] E; rewrite !I in E; apply int_text_inj in E; now subst|]. split; [intros x; apply single_int|].
  split; [split; [exists 45%Z|split; [exists 2%Z|exists 3%Z]]; reflexivity|]. split; [apply no_newline; reflexivity|].
  unfold grid_repr. cbn [g_res g_rsphere g_omega g_nlat g_nlon g_ntrunc]. rewrite !I. vm_compute. reflexivity.
Qed.
