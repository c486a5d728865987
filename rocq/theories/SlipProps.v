(** Slip rules and slip hardening *)
From Verif Require Import Base Diff NemlMathModel TensorModel RotModel CrystModel CrystSpec Blocks SlipModel SlipSpec SlipProofs SlipRule SlipWhole SlipFacts.
From Coq Require Import String List Lia Lra ZArith.
Import ListNotations.
Open Scope R_scope.

(** ** C63 *)
(** slip rates of all systems by stress and by every history variable, for any scalar law and strengths with exact derivatives *)
Theorem C63_slip_derivatives : forall L r Ps Ph, scalar_exact r Ps ->
  (forall k, (k < r_n r)%nat -> strength_exact L (r_str r k) (Ph k)) ->
  is_jac2 (l_n L) 6 (r_nh r) (slip_in L r Ps Ph) (rs_slip L r) (rs_dslip_s L r) (rs_dslip_h L r).
Proof. exact slip_whole. Qed.
Print Assumptions C63_slip_derivatives.
(** rates of all history variables by stress and by every history variable *)
Theorem C63_history_derivatives : forall L r Ps Ph Pr, scalar_exact r Ps ->
  (forall k, (k < r_n r)%nat -> strength_exact L (r_str r k) (Ph k)) ->
  (forall k, (k < r_n r)%nat -> rates_exact L (r_str r k) (r_n r - 1) (Pr k)) ->
  is_jac2 (r_nh r) 6 (r_nh r)
    (fun s h => slip_in L r Ps Ph s h /\ abs_safe L r s h /\
       forall k, (k < r_n r)%nat -> Pr k (rs_slip L r s h) (bsub (r_sizes r) h k))
    (rs_rate L r) (rs_rate_s L r) (rs_rate_h L r).
Proof. exact rate_whole. Qed.
Print Assumptions C63_history_derivatives.
Theorem C63_total_slip_derivatives : forall L r Ps Ph, scalar_exact r Ps ->
  (forall k, (k < r_n r)%nat -> strength_exact L (r_str r k) (Ph k)) ->
  is_grad2 6 (r_nh r) (fun s h => slip_in L r Ps Ph s h /\ abs_safe L r s h)
    (fun s h => sum_slip L (rs_slip L r s h))
    (fun s h => d_sum_slip L (rs_slip L r s h) (rs_dslip_s L r s h))
    (fun s h => d_sum_slip L (rs_slip L r s h) (rs_dslip_h L r s h)).
Proof. exact sum_slip_whole. Qed.
Print Assumptions C63_total_slip_derivatives.
Theorem C63_power_law_scalar : forall g0 n res, scalar_exact (pl_rule g0 n res) (pl_in n).
Proof. exact pl_scalar. Qed.
Print Assumptions C63_power_law_scalar.
Theorem C63_kinematic_scalar : forall g0 n back iso flow, 0 <= g0 -> 0 <= n -> scalar_exact (kin_rule g0 n back iso flow) (kin_in n).
Proof. exact kin_scalar. Qed.
Print Assumptions C63_kinematic_scalar.
(** a power-law crystal is smooth at every stress, the unstressed state included *)
Theorem C63_power_law_crystal : forall L g0 n res Pr, 1 < n -> (forall p, (p < l_n L)%nat -> (l_off L p < l_n L)%nat) ->
  strength_exact L res (fun _ => True) -> rates_exact L res 0 Pr ->
  let r := pl_rule g0 n res in
  let ok := fun s h => (forall p, (p < l_n L)%nat -> 0 < h_tau res L (l_off L p) h) /\ Pr (rs_slip L r s h) h in
  is_jac2 (l_n L) 6 (h_n res) ok (rs_slip L r) (rs_dslip_s L r) (rs_dslip_h L r) /\
  is_jac2 (h_n res) 6 (h_n res) ok (rs_rate L r) (rs_rate_s L r) (rs_rate_h L r).
Proof. exact pl_crystal. Qed.
Print Assumptions C63_power_law_crystal.
Theorem C63_power_law_value : forall g0 n tau st, 0 < st 0%nat -> 0 < n ->
  (0 < tau -> pl_slip g0 n tau st = g0 * Rpower (tau / st 0%nat) n) /\
  (tau < 0 -> pl_slip g0 n tau st = - (g0 * Rpower (- tau / st 0%nat) n)) /\
  (tau = 0 -> pl_slip g0 n tau st = 0).
Proof. exact pl_value. Qed.
Print Assumptions C63_power_law_value.
(** slip follows the resolved shear *)
Theorem C63_power_law_direction : forall g0 n tau st, 0 <= g0 -> 0 < st 0%nat -> 0 <= tau * pl_slip g0 n tau st.
Proof. exact pl_direction. Qed.
Print Assumptions C63_power_law_direction.
Theorem C63_power_law_odd : forall g0 n tau st, pl_slip g0 n (- tau) st = - pl_slip g0 n tau st.
Proof. exact pl_odd. Qed.
Print Assumptions C63_power_law_odd.
Theorem C63_kinematic_inside : forall g0 n tau st, Rabs (tau - st 0%nat) <= st 1%nat -> kin_slip g0 n tau st = 0.
Proof. exact kin_inside. Qed.
Print Assumptions C63_kinematic_inside.
Theorem C63_kinematic_outside : forall g0 n tau st, 0 < g0 -> 0 < st 2%nat -> st 1%nat < Rabs (tau - st 0%nat) -> 
  Rabs (kin_slip g0 n tau st) = g0 * Rpower ((Rabs (tau - st 0%nat) - st 1%nat) / st 2%nat) n /\ kin_slip g0 n tau st <> 0.
Proof. exact kin_outside. Qed.
Print Assumptions C63_kinematic_outside.
Theorem C63_kinematic_direction : forall g0 n tau st, 0 <= g0 -> 0 <= (tau - st 0%nat) * kin_slip g0 n tau st.
Proof. exact kin_direction. Qed.
Print Assumptions C63_kinematic_direction.
(** a twin system loaded backwards is silent *)
Theorem C63_twin_gate : forall L r s h p, l_twin L p = true -> rs_tau L s p < 0 ->
  rs_slip L r s h p = 0 /\ (forall c, rs_dslip_s L r s h p c = 0) /\ (forall x, rs_dslip_h L r s h p x = 0).
Proof. exact twin_gate. Qed.
Print Assumptions C63_twin_gate.
Theorem C63_twin_forward : forall L g0 n res s h p, 0 <= g0 -> 0 < rs_str L (pl_rule g0 n res) h p 0%nat -> l_twin L p = true ->
  0 <= rs_slip L (pl_rule g0 n res) s h p.
Proof. exact twin_forward_power. Qed.
Print Assumptions C63_twin_forward.
(** the systems the rules see are those of the lattice, at the numbers the lattice gives them *)
Theorem C63_lattice : forall hash m2d m2p ops L Q, built hash m2d m2p ops L ->
  l_n (view L Q) = ntotal L /\
  forall g i s p, get_sys L g i = Some s -> lflat L g i = Some p ->
    l_M (view L Q) p = rotM Q s /\ l_N (view L Q) p = rotN Q s /\ l_b (view L Q) p = norm3 (s_burgers s) /\
    l_loc (view L Q) p = i /\ lflat L g 0 = Some (l_off (view L Q) p) /\
    option_map g_twin (nth_error (la_groups L) g) = Some (l_twin (view L Q) p) /\ (p < l_n (view L Q))%nat.
Proof. exact view_ok. Qed.
Print Assumptions C63_lattice.
Theorem C63_average : forall L r h c, (0 < r_n r)%nat -> (0 < l_n L)%nat ->
  (forall k p, (k < r_n r)%nat -> (p < l_n L)%nat -> h_tau (r_str r k) L p (bsub (r_sizes r) h k) = c) -> rs_strength L r h = c.
Proof. exact average_uniform. Qed.
Print Assumptions C63_average.
(** a system gets its own strength when the strength is the same for all systems *)
Theorem C63_own_strength_partial : forall L r h p k, (forall a b g, h_tau (r_str r k) L a g = h_tau (r_str r k) L b g) ->
  rs_str L r h p k = h_tau (r_str r k) L p (bsub (r_sizes r) h k).
Proof. exact strength_uniform. Qed.
Print Assumptions C63_own_strength_partial.
(** in general system (g,i) gets the first strength of its group *)
Theorem C63_own_strength_refuted : exists s, rs_tau lat2 s 1 = 2 /\ rs_slip lat2 (pl_rule 1 2 fixed12) s vzero 1%nat = 4 /\
  pl_slip 1 2 2 (fun _ => h_tau fixed12 lat2 1 vzero) = 1.
Proof. exact slip_wrong_system. Qed.
Print Assumptions C63_own_strength_refuted.
(** strength k is asked of system k of the group, which may not exist *)
Theorem C63_strength_query_refuted : exists k, (k < r_n (kin_rule 1 2 fixed12 fixed12 fixed12))%nat /\ ~ (l_off lat2 1 + k < l_n lat2)%nat.
Proof. exact strength_out_of_range. Qed.
Print Assumptions C63_strength_query_refuted.
Example C63_case : exists s h, let r := pl_rule 1 3 (plastic_slip (voce_slip 10 2 5 0)) in
  rs_tau lat2 s 0 = 7 /\ rs_tau lat2 s 1 = 0 /\ rs_slip lat2 r s h 0%nat <> 0 /\ rs_slip lat2 r s h 1%nat = 0 /\
  (forall p, (p < l_n lat2)%nat -> (l_off lat2 p < l_n lat2)%nat) /\
  slip_in lat2 r (pl_in 3) (fun _ _ => True) s h /\ abs_safe lat2 r s h.
Proof.
  exists (fun c => if Nat.eqb c 3 then 7 else 0), (fun _ => 1). cbv zeta.
  assert (H : forall p, (p < l_n lat2)%nat -> (l_off lat2 p < l_n lat2)%nat) by (intros; cbn; lia).
  assert (E0 : rs_tau lat2 (fun c => if Nat.eqb c 3 then 7 else 0) 0 = 7) by (unfold rs_tau, sym_contract; cbn; ring).
  assert (E1 : rs_tau lat2 (fun c => if Nat.eqb c 3 then 7 else 0) 1 = 0) by (unfold rs_tau, sym_contract; cbn; ring).
  split; [exact E0|]. split; [exact E1|]. split; [|split; [|split; [exact H|]]].
  - unfold rs_slip, rs_gate. rewrite E0. cbn.
    destruct (pl_value 1 3 7 (fun _ => 6)) as [V _]; [lra|lra|].
    change (pl_slip 1 3 7 (rs_str lat2 (pl_rule 1 3 (plastic_slip (voce_slip 10 2 5 0))) (fun _ => 1) 0) <> 0).
    replace (pl_slip 1 3 7 (rs_str lat2 (pl_rule 1 3 (plastic_slip (voce_slip 10 2 5 0))) (fun _ => 1) 0)) with (pl_slip 1 3 7 (fun _ => 6)).
    + rewrite V by lra. apply Rgt_not_eq. apply Rmult_lt_0_compat; [lra|apply exp_pos].
    + unfold pl_slip, rs_str, bsub. cbn. replace (1 + 5 + 0) with 6 by ring. reflexivity.
  - unfold rs_slip, rs_gate. rewrite E1. cbn. unfold pl_slip. unfold Rdiv. ring.
  - apply (pl_regular lat2 1 3 (plastic_slip (voce_slip 10 2 5 0))); [lra|]. intros p Hp. split; [apply H; exact Hp|]. unfold rs_str, bsub. cbn. lra.
Qed.

(** ** C64 *)
Theorem C64_fixed : forall L s ne, strength_exact L (fixed_strength s) (fun _ => True) /\ rates_exact L (fixed_strength s) ne (fun _ _ => True).
Proof. exact fixed_exact. Qed.
Print Assumptions C64_fixed.
(** strength and its derivatives; rates with no other history block *)
Theorem C64_voce_per_system_partial : forall L v, vp_n v = l_n L -> strength_exact L (voce_per_system v) (fun _ => True)
  /\ rates_exact L (voce_per_system v) 0 (voce_in v).
Proof. exact voce_exact. Qed.
Print Assumptions C64_voce_per_system_partial.
Theorem C64_frederick_armstrong_partial : forall L v, fa_n v = l_n L -> strength_exact L (fa_slip v) (fun _ => True) /\ rates_exact L (fa_slip v) 0 (fa_in v).
Proof. exact fa_exact. Qed.
Print Assumptions C64_frederick_armstrong_partial.
Theorem C64_general_linear : forall L v ne, gl_n v = l_n L -> strength_exact L (general_linear v) (fun _ => True)
  /\ rates_exact L (general_linear v) ne (fun _ _ => True).
Proof. exact general_linear_exact. Qed.
Print Assumptions C64_general_linear.
Theorem C64_simple_linear : forall L v ne, sm_n v = l_n L -> strength_exact L (simple_linear v) (fun _ => True)
  /\ rates_exact L (simple_linear v) ne (fun _ _ => True).
Proof. exact simple_linear_exact. Qed.
Print Assumptions C64_simple_linear.
Theorem C64_lanl_partial : forall L v, la_n v = l_n L -> strength_exact L (lanl_ti v) (fun _ => True)
  /\ rates_exact L (lanl_ti v) 0 (fun _ _ => True).
Proof. exact lanl_exact. Qed.
Print Assumptions C64_lanl_partial.
(** any law of the total slip whose factor has the reported derivative *)
Theorem C64_plastic_slip : forall L m ne, factor_exact m ->
  strength_exact L (plastic_slip m) (fun _ => True) /\ rates_exact L (plastic_slip m) ne (fun _ _ => True).
Proof. exact plastic_exact. Qed.
Print Assumptions C64_plastic_slip.
Theorem C64_plastic_slip_sum : forall L n m ne, (forall i, (i < n)%nat -> factor_exact (m i)) ->
  strength_exact L (sum_plastic n m) (fun _ => True) /\ rates_exact L (sum_plastic n m) ne (fun _ _ => True).
Proof. exact sum_plastic_exact. Qed.
Print Assumptions C64_plastic_slip_sum.
Theorem C64_voce_factor : forall tau_sat b tau0 nye, factor_exact (voce_slip tau_sat b tau0 nye).
Proof. exact voce_factor. Qed.
Print Assumptions C64_voce_factor.
Theorem C64_linear_factor : forall tau0 k1 nye, factor_exact (linear_slip tau0 k1 nye).
Proof. exact linear_factor. Qed.
Print Assumptions C64_linear_factor.
(** derivatives by the other strengths of a rule *)
Theorem C64_voce_external_refuted : vp_n voce_one = l_n (lat1 false) /\ ~ rates_exact (lat1 false) (voce_per_system voce_one) 1 (voce_in voce_one).
Proof. exact ext_missing_voce. Qed.
Print Assumptions C64_voce_external_refuted.
Theorem C64_frederick_armstrong_external_refuted : fa_n fa_one = l_n (lat1 false) /\ ~ rates_exact (lat1 false) (fa_slip fa_one) 1 (fa_in fa_one).
Proof. exact ext_missing_fa. Qed.
Print Assumptions C64_frederick_armstrong_external_refuted.
Theorem C64_lanl_external_refuted : la_n lanl_one = l_n (lat1 false) /\ ~ rates_exact (lat1 false) (lanl_ti lanl_one) 1 (fun _ _ => True).
Proof. exact ext_wrong_lanl. Qed.
Print Assumptions C64_lanl_external_refuted.
Theorem C64_voce_slip_direction : forall ts b t0 ny L sl h, 0 < b ->
  (h 0%nat <= ts -> 0 <= h_rate (plastic_slip (voce_slip ts b t0 ny)) L sl h 0%nat) /\
  (ts <= h 0%nat -> h_rate (plastic_slip (voce_slip ts b t0 ny)) L sl h 0%nat <= 0).
Proof. exact voce_slip_direction. Qed.
Print Assumptions C64_voce_slip_direction.
Theorem C64_linear_slip_direction : forall t0 k1 ny L sl h, 0 <= k1 -> 0 <= h_rate (plastic_slip (linear_slip t0 k1 ny)) L sl h 0%nat.
Proof. exact linear_slip_direction. Qed.
Print Assumptions C64_linear_slip_direction.
Theorem C64_frederick_armstrong_limit : forall v L sl h k, 0 < fa_sat v k -> 0 <= fa_k v k ->
  (h k = fa_sat v k -> h_rate (fa_slip v) L sl h k <= 0) /\ (h k = - fa_sat v k -> 0 <= h_rate (fa_slip v) L sl h k) /\
  (Rabs (h k) <= fa_sat v k -> 0 <= sl k * h_rate (fa_slip v) L sl h k).
Proof. exact fa_limit. Qed.
Print Assumptions C64_frederick_armstrong_limit.
Theorem C64_lanl_direction : forall v L sl h k, (l_twin L k = true -> 0 <= h_rate (lanl_ti v) L sl h k) /\
  (l_twin L k = false -> la_k2 v k * h k <= la_k1 v k -> 0 <= h_rate (lanl_ti v) L sl h k) /\
  (l_twin L k = false -> la_k1 v k <= la_k2 v k * h k -> h_rate (lanl_ti v) L sl h k <= 0).
Proof. exact lanl_direction. Qed.
Print Assumptions C64_lanl_direction.
(** the per-system Voce law softens under negative slip *)
Theorem C64_voce_softens_refuted : forall v L sl h k, 0 < vp_k v k -> 0 < vp_base v h k -> sl k < 0 -> h_rate (voce_per_system v) L sl h k < 0.
Proof. exact voce_ps_softens. Qed.
Print Assumptions C64_voce_softens_refuted.
Theorem C64_initial_voce : forall v L p, h_tau (voce_per_system v) L p (h_init (voce_per_system v)) = vp_init v p.
Proof. exact voce_initial. Qed.
Print Assumptions C64_initial_voce.
Theorem C64_initial_simple : forall v L p, h_tau (simple_linear v) L p (h_init (simple_linear v)) = sm_tau0 v p.
Proof. exact simple_linear_initial. Qed.
Print Assumptions C64_initial_simple.
Theorem C64_initial_plastic : forall m L p, h_tau (plastic_slip m) L p (h_init (plastic_slip m)) = ps_init m + ps_static m + ps_nye m.
Proof. exact plastic_initial. Qed.
Print Assumptions C64_initial_plastic.
(** the initial strength of the general linear law is twice the given one *)
Theorem C64_initial_general_refuted : forall v L p, h_tau (general_linear v) L p (h_init (general_linear v)) = 2 * gl_tau0 v p.
Proof. exact general_linear_initial. Qed.
Print Assumptions C64_initial_general_refuted.
(** the interaction row of system (g,i) is row i *)
Theorem C64_simple_row_refuted : exists v h, sm_n v = l_n lat11 /\
  h_tau (simple_linear v) lat11 1 h <> rsum (sm_n v) (fun j => sm_G v 1%nat j * h j) + sm_tau0 v 1%nat.
Proof. exact simple_linear_row_wrong. Qed.
Print Assumptions C64_simple_row_refuted.
Theorem C64_nye : forall k T a, k 0 <> 0 -> voce_nye k T (Some a) = k T * sqrt (norm9 a) /\ voce_nye k T None = 0.
Proof. exact nye_used. Qed.
Print Assumptions C64_nye.
Theorem C64_nye_refuted : exists k T a, k T * sqrt (norm9 a) <> 0 /\ voce_nye k T (Some a) = 0.
Proof. exact nye_ignored. Qed.
Print Assumptions C64_nye_refuted.
Example C64_case : rates_exact lat2 (sum_plastic 2 (fun i => if Nat.eqb i 0 then voce_slip 10 2 5 0 else linear_slip 1 3 0)) 2 (fun _ _ => True) /\
  strength_exact lat2 (voce_per_system {| vp_n := 2; vp_init := fun _ => 1; vp_k := fun _ => 1; vp_sat := fun _ => 2; vp_m := fun _ => 2 |}) (fun _ => True) /\
  voce_in {| vp_n := 2; vp_init := fun _ => 1; vp_k := fun _ => 1; vp_sat := fun _ => 2; vp_m := fun _ => 2 |} (fun _ => 1) (fun _ => 1.5).
Proof.
  split; [|split].
  - apply (sum_plastic_exact lat2 2). intros i Hi. destruct (Nat.eqb i 0); [apply voce_factor|apply linear_factor].
  - apply (proj1 (voce_exact lat2 {| vp_n := 2; vp_init := fun _ => 1; vp_k := fun _ => 1; vp_sat := fun _ => 2; vp_m := fun _ => 2 |} eq_refl)).
  - intros k Hk. unfold vp_base. cbn. split; lra.
Qed.
