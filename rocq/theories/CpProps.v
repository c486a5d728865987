(** Inelastic models of a crystal and its kinematics *)
From Verif Require Import Base Diff NemlMathModel NemlMathSpec TensorModel RotModel RotSpec CrystModel Blocks SlipModel SlipSpec SlipFacts CpModel CpSpec CpProofs CpComb CpFacts CpTurn.
From Coq Require Import List Lia Lra.
Import ListNotations.
Open Scope R_scope.

(** ** C65 *)
Theorem C65_none : inelastic_exact no_inelasticity (fun _ _ => True).
Proof. exact no_inelasticity_exact. Qed.
Print Assumptions C65_none.
(** plastic deformation rate, plastic spin and history rates by stress and by every variable, from the promises of the slip rule *)
Theorem C65_slip_derivatives : forall L r Ps Ph Pr, scalar_exact r Ps ->
  (forall k, (k < r_n r)%nat -> strength_exact L (r_str r k) (Ph k)) ->
  (forall k, (k < r_n r)%nat -> rates_exact L (r_str r k) (r_n r - 1) (Pr k)) ->
  inelastic_exact (asaro L r) (fun s h => slip_in L r Ps Ph s h /\ abs_safe L r s h /\
       forall k, (k < r_n r)%nat -> Pr k (rs_slip L r s h) (bsub (r_sizes r) h k)).
Proof. exact asaro_exact. Qed.
Print Assumptions C65_slip_derivatives.
(** the power law, away from the threshold *)
Theorem C65_power_derivatives : forall A n, inelastic_exact (power_inelasticity A n) (fun s _ => eps < pi_seq s).
Proof. exact power_exact. Qed.
Print Assumptions C65_power_derivatives.
(** a sum of models, when at most one of them has variables *)
Theorem C65_combined_derivatives_partial : forall m ms (P : nat -> vec -> vec -> Prop), one_history m ms ->
  (forall k, (k < m)%nat -> inelastic_exact (ms k) (P k)) ->
  inelastic_exact (combined m ms) (fun s h => forall k, (k < m)%nat -> P k s (bsub (cb_sizes ms) h k)).
Proof. exact combined_exact. Qed.
Print Assumptions C65_combined_derivatives_partial.
(** plastic flow keeps the volume *)
Theorem C65_slip_isochoric : forall L Q r s h, unitq Q -> (forall p, (p < l_n (view L Q))%nat -> ndot (s_dir (sys_at L p)) (s_plane (sys_at L p)) = 0) ->
  sym_trace (i_dp (asaro (view L Q) r) s h) = 0.
Proof. exact crystal_isochoric. Qed.
Print Assumptions C65_slip_isochoric.
Theorem C65_power_isochoric : forall A n s h, sym_trace (i_dp (power_inelasticity A n) s h) = 0.
Proof. exact power_isochoric. Qed.
Print Assumptions C65_power_isochoric.
Theorem C65_combined_isochoric : forall m ms s h, (forall k, (k < m)%nat -> sym_trace (i_dp (ms k) s (bsub (cb_sizes ms) h k)) = 0) -> sym_trace (i_dp (combined m ms) s h) = 0.
Proof. exact combined_isochoric. Qed.
Print Assumptions C65_combined_isochoric.
(** plastic work is the work of the resolved shears on the slip rates *)
Theorem C65_slip_work : forall L r s h, dot 6 s (i_dp (asaro L r) s h) = rsum (l_n L) (fun p => rs_tau L s p * rs_slip L r s h p).
Proof. exact work_sum. Qed.
Print Assumptions C65_slip_work.
Theorem C65_slip_work_positive : forall L g0 n res s h, 0 <= g0 -> (forall p, (p < l_n L)%nat -> 0 < rs_str L (pl_rule g0 n res) h p 0%nat) ->
  0 <= dot 6 s (i_dp (asaro L (pl_rule g0 n res)) s h).
Proof. exact power_law_work. Qed.
Print Assumptions C65_slip_work_positive.
Theorem C65_power_work_positive : forall A n s h, 0 <= A -> 0 <= dot 6 s (i_dp (power_inelasticity A n) s h).
Proof. exact power_work. Qed.
Print Assumptions C65_power_work_positive.
Theorem C65_combined_work_positive : forall m ms s h, (forall k, (k < m)%nat -> 0 <= dot 6 s (i_dp (ms k) s (bsub (cb_sizes ms) h k))) -> 0 <= dot 6 s (i_dp (combined m ms) s h).
Proof. exact combined_work. Qed.
Print Assumptions C65_combined_work_positive.
(** turning crystal and stress together turns the plastic rates and keeps the history rates *)
Theorem C65_slip_turns : forall q L L' r, unitq q -> turned_lattice q L L' -> (forall k, (k < r_n r)%nat -> frame_blind (r_str r k)) ->
  (forall tau st st', (forall k, (k < r_n r)%nat -> st k = st' k) -> r_slip r tau st = r_slip r tau st') ->
  turned_model q (asaro L r) (asaro L' r).
Proof. exact asaro_turned. Qed.
Print Assumptions C65_slip_turns.
Theorem C65_lattice_turns : forall q L Q, unitq q -> unitq Q -> turned_lattice q (view L Q) (view L (qmul q Q)).
Proof. exact view_turned. Qed.
Print Assumptions C65_lattice_turns.
(** no hardening law looks at the directions of the systems *)
Theorem C65_laws_blind : (forall s, frame_blind (fixed_strength s)) /\ (forall v, frame_blind (voce_per_system v)) /\ (forall v, frame_blind (fa_slip v)) /\
  (forall v, frame_blind (general_linear v)) /\ (forall v, frame_blind (simple_linear v)) /\ (forall v, frame_blind (lanl_ti v)) /\
  (forall m, frame_blind (plastic_slip m)) /\ (forall n m, frame_blind (sum_plastic n m)).
Proof. exact blind_laws. Qed.
Print Assumptions C65_laws_blind.
Theorem C65_power_turns : forall q A n, unitq q -> turned_model q (power_inelasticity A n) (power_inelasticity A n).
Proof. exact power_turned. Qed.
Print Assumptions C65_power_turns.
Theorem C65_power_value : forall A n s h, eps <= pi_seq s -> forall k, i_dp (power_inelasticity A n) s h k = A * Rpower (pi_seq s) (n - 1) * sym_dev s k.
Proof. exact power_value. Qed.
Print Assumptions C65_power_value.
Theorem C65_power_equivalent : forall s, pi_seq s * pi_seq s = 3 / 2 * dot 6 (sym_dev s) (sym_dev s) /\ 0 <= pi_seq s.
Proof. exact seq_mises. Qed.
Print Assumptions C65_power_equivalent.
Theorem C65_power_strength : forall A n h, 0 < A -> n <> 0 -> A * cpow (i_str (power_inelasticity A n) h) n = 1.
Proof. exact power_strength. Qed.
Print Assumptions C65_power_strength.
Theorem C65_combined_strength : forall m ms h, 0 <= i_str (combined m ms) h /\
  (forall k, (k < m)%nat -> i_str (ms k) (bsub (cb_sizes ms) h k) <= i_str (combined m ms) h) /\
  (i_str (combined m ms) h = 0 \/ exists k, (k < m)%nat /\ i_str (combined m ms) h = i_str (ms k) (bsub (cb_sizes ms) h k)).
Proof. exact combined_strength. Qed.
Print Assumptions C65_combined_strength.
(** below the threshold the reported derivative is not the derivative *)
Theorem C65_power_small_refuted : forall A n, 0 < A -> ~ inelastic_exact (power_inelasticity A n) (fun _ _ => True).
Proof. exact power_small_derivative. Qed.
Print Assumptions C65_power_small_refuted.
(** two models with variables: the reported derivative is wrong as soon as the first depends on its variables *)
Theorem C65_combined_two_refuted : forall ms (P0 P1 P : vec -> vec -> Prop) (s h : vec) i q, i_full (ms 0%nat) = true -> i_full (ms 1%nat) = true -> (q < i_n (ms 0%nat))%nat -> (i < 6)%nat ->
  inelastic_exact (ms 0%nat) P0 -> inelastic_exact (ms 1%nat) P1 -> P0 s (bsub (cb_sizes ms) h 0) -> P1 s (bsub (cb_sizes ms) h 1) -> P s h ->
  i_dp_h (ms 0%nat) s (bsub (cb_sizes ms) h 0) i q <> 0 -> ~ inelastic_exact (combined 2 ms) P.
Proof. exact combined_two_wrong. Qed.
Print Assumptions C65_combined_two_refuted.
Theorem C65_combined_two_reported : forall ms s h i q, i_full (ms 0%nat) = true -> i_full (ms 1%nat) = true -> (q < i_n (ms 0%nat))%nat ->
  i_dp_h (combined 2 ms) s h i q = 0 /\ i_wp_h (combined 2 ms) s h i q = 0.
Proof. exact combined_two_reported. Qed.
Print Assumptions C65_combined_two_reported.
(** three models with variables: there is no answer *)
Theorem C65_combined_three_refuted : forall m ms J s h, (3 <= length (cb_fulls m ms))%nat -> cb_union m ms J s h = None.
Proof. exact combined_three. Qed.
Print Assumptions C65_combined_three_refuted.
(** the hypotheses are met by a crystal of two systems with a hardening variable, beside a power law *)
Example C65_case : let r := pl_rule 1 3 (plastic_slip (voce_slip 10 2 5 0)) in
  let ms := fun k => if Nat.eqb k 0 then asaro lat2 r else power_inelasticity 1 3 in
  one_history 2 ms /\ i_n (combined 2 ms) = 1%nat /\
  (forall p, (p < l_n lat2)%nat -> 0 < rs_str lat2 r (fun _ => 1) p 0%nat) /\
  frame_blind (r_str r 0) /\ eps < pi_seq spin_stress.
Proof.
  cbv zeta. split; [|split; [reflexivity|split; [|split; [apply blind_laws|exact spin_seq]]]].
  - split; [cbn; lia|]. intros k Hk. destruct k as [|[|k]]; cbn; [discriminate|reflexivity|lia].
  - intros p Hp. unfold rs_str. cbn. unfold bsub. lra.
Qed.
(** two crystals in one model: the first really depends on its variable *)
Example C65_case_two : let ms := fun _ : nat => asaro lat2 (pl_rule 1 3 (plastic_slip (voce_slip 10 2 5 0))) in
  i_full (ms 0%nat) = true /\ i_full (ms 1%nat) = true /\ i_n (ms 0%nat) = 1%nat /\
  i_dp_h (ms 0%nat) (fun c => if Nat.eqb c 3 then 7 else 0) (fun _ => 1) 3%nat 0%nat <> 0.
Proof. exact two_case. Qed.

(** ** C66 *)
(** stress rate by stress and by every variable, for every inelastic model with exact derivatives *)
Theorem C66_derivatives : forall f m P d, inelastic_exact m P ->
  is_jac2 6 6 (i_n m) P (fun s h => sk_rate f m s d h) (sk_ds f m) (sk_dh f m).
Proof. exact stress_rate_exact. Qed.
Print Assumptions C66_derivatives.
Theorem C66_by_deformation : forall f m (s h : vec) (d : R -> vec) t vd, path 6 d t vd -> path 6 (fun u => sk_rate f m s (d u) h) t (mv 6 (sk_dd f) vd).
Proof. exact rate_by_d. Qed.
Print Assumptions C66_by_deformation.
(** the derivative by the vorticity, through the spin computed at the start of the step *)
Theorem C66_by_vorticity : forall C S m (s0 h0 s d h : vec) (w : R -> vec) t vw, path 3 w t vw ->
  path 6 (fun u => sk_rate (sk_decouple C S m s0 (w u) h0) m s d h) t (mv 3 (sk_dw_decouple (sk_decouple C S m s0 (w t) h0) s) vw).
Proof. exact rate_by_w. Qed.
Print Assumptions C66_by_vorticity.
(** the bracket in the stress rate is the commutator of the full tensors *)
Theorem C66_bracket : forall e w i j, (i < 3)%nat -> (j < 3)%nat -> t2 (usym (net e w)) i j = commutator (t2 (usym e)) (t2 (uskew w)) i j.
Proof. exact net_full. Qed.
Print Assumptions C66_bracket.
(** turning crystal, stress and loading turns spin and stress rate *)
Theorem C66_turns : forall q m m' C S s0 w h0 s d h, unitq q -> turned_model q m m' ->
  let f := sk_decouple C S m s0 w h0 in
  let f' := {| f_spin := sk_spin (rowmajor 6 (apply_ss q (flat 6 S))) m' (apply_sym q s0) (apply_skew q w) h0;
               f_C := rowmajor 6 (apply_ss q (flat 6 C)); f_S := rowmajor 6 (apply_ss q (flat 6 S)) |} in
  veq 3 (f_spin f') (apply_skew q (f_spin f)) /\
  veq 6 (sk_rate f' m' (apply_sym q s) (apply_sym q d) h) (apply_sym q (sk_rate f m s d h)).
Proof. exact rate_turned. Qed.
Print Assumptions C66_turns.
Theorem C66_elastic : forall C S s0 w h0 s d h, forall i, (i < 6)%nat ->
  sk_rate (sk_decouple C S no_inelasticity s0 w h0) no_inelasticity s d h i = mv 6 (flat 6 C) (vsub d (net (mv 6 (flat 6 S) s) w)) i.
Proof. exact elastic_rate. Qed.
Print Assumptions C66_elastic.
Theorem C66_unstressed : forall f m d h, (forall k, (k < 6)%nat -> i_dp m vzero h k = 0) -> forall i, (i < 6)%nat -> sk_rate f m vzero d h i = mv 6 (flat 6 (f_C f)) d i.
Proof. exact unstressed_rate. Qed.
Print Assumptions C66_unstressed.
(** the spin that is computed: without the commutator of elastic strain and plastic rate *)
Theorem C66_spin_partial : forall S m s w h k, (k < 3)%nat -> sk_spin S m s w h k = w k - i_wp m s h k.
Proof. exact spin_value. Qed.
Print Assumptions C66_spin_partial.
(** it is not the documented one *)
Theorem C66_spin_refuted : exists s w, 
  documented_spin w (i_wp (power_inelasticity 1 1) s vzero) (mv 6 (flat 6 cubicS) s) (i_dp (power_inelasticity 1 1) s vzero) 0%nat 1%nat
  <> mat3 (uskew (sk_spin cubicS (power_inelasticity 1 1) s w vzero)) 0%nat 1%nat.
Proof. exact documented_spin_differs. Qed.
Print Assumptions C66_spin_refuted.
Example C66_case : let f := sk_decouple cubicS cubicS (power_inelasticity 1 3) spin_stress (fun _ => 1) vzero in
  inelastic_exact (power_inelasticity 1 3) (fun s _ => eps < pi_seq s) /\ eps < pi_seq spin_stress /\
  f_spin f 0%nat = 1 /\ net (sk_e f spin_stress) (f_spin f) 0%nat <> 0 /\ unitq (Quat (3/5) (4/5) 0 0).
Proof.
  cbv zeta. split; [apply power_exact|]. split; [exact spin_seq|].
  assert (ES : forall k, (k < 3)%nat -> f_spin (sk_decouple cubicS cubicS (power_inelasticity 1 3) spin_stress (fun _ => 1) vzero) k = 1).
  { intros k Hk. cbn [sk_decouple f_spin]. rewrite spin_value by exact Hk. cbn. unfold vzero2. ring. }
  split; [apply ES; lia|]. split; [|unfold unitq; cbn; field].
  rewrite net_table by lia. rewrite !ES by lia. unfold sk_e. cbn [sk_decouple f_S]. rewrite !cubicS_acts by lia. unfold spin_stress. cbn.
  pose proof NemlMathProofs.r2_sqr. nra.
Qed.
