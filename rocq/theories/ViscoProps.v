(** Properties C28 (derivatives of viscoplastic flow rules), C29 (superposition), C30 (no flow
    inside the yield surface) and C55 (what a viscoplastic update solves). *)
From Verif Require Import Base.
From Verif Require Import Diff.
From Verif Require Import NemlMathModel NemlMathSpec InterpModel.
From Verif Require Import SolverModel SubstepModel SubstepSpec SurfModel SurfSpec SurfProofs HardModel HardSpec HardProofs RiProofs.
From Verif Require Import PlastModel PlastSpec PlastProofs ViscoModel ViscoSpec ViscoProofs YaguchiProofs ViscoMore ViscoCases.

Theorem C28_power_law : forall n eta T f, 0 < eta T -> 0 < f ->
  is_derive (fun x => gf_g (GPowerLaw n eta) x T) f (gf_dg (GPowerLaw n eta) f T).
Proof. intros n eta T f H Hf. exact (gpower_exact n eta T H f Hf). Qed.
Print Assumptions C28_power_law.
Theorem C28_fluidity : forall eta K0 A b, fluid_exact (ConstantFluidity eta) /\ fluid_exact (SaturatingFluidity K0 A b).
Proof. intros. split; [apply constant_fluid_exact|apply saturating_fluid_exact]. Qed.
Print Assumptions C28_fluidity.

(** every derivative a Perzyna rule reports is right, off the yield surface itself *)
Theorem C28_perzyna : forall Y H G V P Q, make_perzyna Y H G = Some V -> surface_exact P Y -> hard_exact Q H ->
  vflow_exact (fun T s a => P T s (hr_q H a T) /\ Q T a /\ ys_f Y s (hr_q H a T) T <> 0 /\ gfun_exact G T) V.
Proof. exact perzyna_exact. Qed.
Print Assumptions C28_perzyna.
Theorem C28_linear_viscous : forall Y eta P, surface_exact P Y -> vflow_exact (fun T s a => P T s vzero) (LinearViscous Y eta).
Proof. exact linear_viscous_exact. Qed.
Print Assumptions C28_linear_viscous.
Theorem C28_chaboche : forall Y H F n pre V P Q Ph Pt PT, make_chaboche Y H F n pre = Some V -> surface_exact P Y ->
  na_q_exact Q H -> na_h_exact Ph H -> na_time_exact Pt H -> na_temp_exact PT H -> fluid_exact F -> (1 <= na_n H)%nat ->
  vflow_exact (fun T s a => P T s (na_q H a T) /\ Q T a /\ Ph T s a /\ Pt T s a /\ PT T s a /\
    ys_f Y s (na_q H a T) T <> 0 /\ 0 < fl_eta F (a 0%nat) T) V.
Proof. exact chaboche_flow_exact. Qed.
Print Assumptions C28_chaboche.
Theorem C28_yaguchi : forall p, vflow_exact (y_domain p) (Yaguchi p).
Proof. exact yaguchi_exact. Qed.
Print Assumptions C28_yaguchi.
(** The derivative of the static recovery of the Yaguchi model is right only for deviatoric
    backstresses: a state meeting every other condition where it is wrong. *)
Theorem C28_yaguchi_nondeviatoric_refuted : exists p T s a,
  yD p T <> 0 /\ 0 < yJ2 (y_dS s a) /\ y_over p s a T <> 0 /\ 0 < yJ2 (yX1 a) /\ 0 < yJ2 (yX2 a) /\ tr2 (usym (yX2 a)) = 0 /\
  ~ is_derive (fun x => pv (vf_ht (Yaguchi p)) s (fun i => if Nat.eqb i 0 then x else a i) T 0%nat) (a 0%nat)
      (pda (vf_ht (Yaguchi p)) s a T 0%nat 0%nat).
Proof. exact yaguchi_nondev. Qed.
Print Assumptions C28_yaguchi_nondeviatoric_refuted.
(** ... but deviatoric backstresses have deviatoric rates, so no state reached from the initial
    (zero) backstresses is like that *)
Theorem C28_yaguchi_stays_deviatoric : forall p s a T y, tr2 (usym (yX1 a)) = 0 -> tr2 (usym (yX2 a)) = 0 ->
  let rate := fun i => pv (vf_h (Yaguchi p)) s a T i * y + pv (vf_ht (Yaguchi p)) s a T i in
  tr2 (usym (yX1 rate)) = 0 /\ tr2 (usym (yX2 rate)) = 0.
Proof. exact yaguchi_deviatoric. Qed.
Print Assumptions C28_yaguchi_stays_deviatoric.

(** rates of the thermo-viscoplastic model: exact whenever the flow rule is *)
Theorem C28_total_rates : forall P C V limit, vflow_exact P V -> gflow_exact (fun T s a _ => P T s a) (TVP C V limit).
Proof. exact tvp_exact. Qed.
Print Assumptions C28_total_rates.
(** sizes that do not match are rejected, and only those *)
Theorem C28_size_check : forall Y H G K F n pre,
  (make_perzyna Y H G = None <-> ys_n Y <> hr_n H) /\ (make_chaboche Y K F n pre = None <-> ys_n Y <> na_ninter K).
Proof.
  intros. unfold make_perzyna, make_chaboche.
  destruct (Nat.eqb_spec (ys_n Y) (hr_n H)), (Nat.eqb_spec (ys_n Y) (na_ninter K)); split; split; intros; try congruence; try contradiction.
Qed.
Print Assumptions C28_size_check.

(** J2 Perzyna with Voce hardening and a power law; J2 Chaboche with any number of backstresses *)
Theorem C28_j2_perzyna : forall s0 Rv d n eta V, (forall T, 0 < eta T) ->
  make_perzyna IsoJ2 (VoceIso s0 Rv d) (GPowerLaw n eta) = Some V ->
  vflow_exact (fun T s a => iso_domain T s a /\ norm2 6 (dev_vec s) <> sqrt (2 / 3) * (s0 T + Rv T * (1 - exp (- d T * a 0%nat)))) V.
Proof. exact j2_perzyna. Qed.
Print Assumptions C28_j2_perzyna.
Theorem C28_j2_chaboche : forall iso p F n pre V Q, hr_n iso = 1%nat -> hard_exact Q iso -> (forall i, gamma_exact (ch_g p i)) ->
  fluid_exact F -> (forall a T, 0 < fl_eta F a T) -> make_chaboche IsoKinJ2 (Chaboche iso p) F n pre = Some V ->
  vflow_exact (fun T s a => Q T a /\ ch_domain (ch_nb p) T s a /\ ch_time_domain p T s a /\
    ys_f IsoKinJ2 s (na_q (Chaboche iso p) a T) T <> 0) V.
Proof. exact j2_chaboche. Qed.
Print Assumptions C28_j2_chaboche.

Example C28_case : forall d n eta V, (forall T, 0 < eta T) ->
  make_perzyna IsoJ2 (VoceIso (fun _ => 0) (fun _ => 0) d) (GPowerLaw n eta) = Some V ->
  gflow_exact (fun T s a _ => iso_domain T s a /\ norm2 6 (dev_vec s) <> 0) (TVP (fun _ => delta) V 1) /\
  iso_domain 0 (vlist [0; 0; 0; 1]) vzero.
Proof. exact visco_case. Qed.
(** a state of Grade 91 at 800 K where all derivatives of the Yaguchi model are right *)
Example C28_yaguchi_case : exists s a, y_domain gr91 800 s a /\ 0 < y_y gr91 s a 800.
Proof. exact gr91_case. Qed.

(** ** C29 *)
(** the scalar rate is the sum of the component rates, each evaluated with its own piece of the
    history; history rates are the components' own h (and h_time, h_temp) in that piece *)
Theorem C29_rate : forall rs s a T,
  vf_n (Superimposed rs) = rsumn (length rs) (fun k => vf_n (comp rs k)) /\
  vf_y (Superimposed rs) s a T = rsum (length rs) (fun k => vf_y (comp rs k) s (comp_hist rs k a) T).
Proof. exact sp_rate. Qed.
Print Assumptions C29_rate.
Theorem C29_history : forall rs s a T k i, (k < length rs)%nat -> (i < vf_n (comp rs k))%nat ->
  pv (vf_h (Superimposed rs)) s a T (offset rs k + i)%nat = pv (vf_h (comp rs k)) s (comp_hist rs k a) T i /\
  pv (vf_ht (Superimposed rs)) s a T (offset rs k + i)%nat = pv (vf_ht (comp rs k)) s (comp_hist rs k a) T i /\
  pv (vf_hT (Superimposed rs)) s a T (offset rs k + i)%nat = pv (vf_hT (comp rs k)) s (comp_hist rs k a) T i.
Proof. intros rs s a T k i Hk Hi. repeat split; apply (sp_cat_nth _ rs k s a T i Hk Hi). Qed.
Print Assumptions C29_history.
(** the inelastic strain rate is the sum of the components' inelastic strain rates *)
Theorem C29_strain_rate : forall rs s a T i,
  (forall k, (k < length rs)%nat -> 0 <= vf_y (comp rs k) s (comp_hist rs k a) T) ->
  vf_y (Superimposed rs) s a T * pv (vf_g (Superimposed rs)) s a T i
  = rsum (length rs) (fun k => vf_y (comp rs k) s (comp_hist rs k a) T * pv (vf_g (comp rs k)) s (comp_hist rs k a) T i).
Proof. exact sp_strain_rate. Qed.
Print Assumptions C29_strain_rate.
(** hence the stress rate is that of the summed inelastic strain rates, for rules without
    separate time and temperature rate terms *)
Theorem C29_stress_rate : forall rs C limit s a e T Td i,
  (forall k, (k < length rs)%nat -> 0 <= vf_y (comp rs k) s (comp_hist rs k a) T /\ vf_gt (comp rs k) = zero_part /\ vf_gT (comp rs k) = zero_part) ->
  gf_s (TVP C (Superimposed rs) limit) s a e T Td i
  = mv 6 (C T) (fun j => e j - rsum (length rs) (fun k => vf_y (comp rs k) s (comp_hist rs k a) T * pv (vf_g (comp rs k)) s (comp_hist rs k a) T j)) i.
Proof. exact sp_stress_rate. Qed.
Print Assumptions C29_stress_rate.
(** its derivatives are exact wherever some component flows *)
Theorem C29_derivatives : forall rs, (forall r P, In (r, P) rs -> vflow_exact P r) ->
  vflow_exact (fun T s a => all_dom rs T s a /\ 0 < vf_y (Superimposed (map fst rs)) s a T) (Superimposed (map fst rs)).
Proof. exact superimposed_exact. Qed.
Print Assumptions C29_derivatives.
(** Refuted: the strain rates a component declares per unit time (g_time) do not add up -- they
    are averaged, and vanish from the sum when no component flows at a rate. *)
Theorem C29_time_rate_refuted : exists rs s a T,
  (forall k, (k < length rs)%nat -> 0 < vf_y (comp rs k) s (comp_hist rs k a) T) /\
  pv (vf_gt (Superimposed rs)) s a T 0%nat
  <> rsum (length rs) (fun k => pv (vf_gt (comp rs k)) s (comp_hist rs k a) T 0%nat).
Proof. exact sp_time_refuted. Qed.
Print Assumptions C29_time_rate_refuted.
(** Refuted: a component's history does not evolve with its own rate but with the total one *)
Theorem C29_own_rate_refuted : exists rs C limit s a e T k i,
  (forall j, (j < length rs)%nat -> 0 <= vf_y (comp rs j) s (comp_hist rs j a) T) /\
  (k < length rs)%nat /\ (i < vf_n (comp rs k))%nat /\
  vf_y (comp rs k) s (comp_hist rs k a) T = 0 /\
  gf_a (TVP C (comp rs k) limit) s (comp_hist rs k a) e T 0 i = 0 /\
  gf_a (TVP C (Superimposed rs) limit) s a e T 0 (offset rs k + i)%nat <> 0.
Proof. exact sp_own_rate_refuted. Qed.
Print Assumptions C29_own_rate_refuted.
Example C29_case : forall V, make_perzyna IsoJ2 (VoceIso (fun _ => 1) (fun _ => 1) (fun _ => 1)) (GPowerLaw (fun _ => 2) (fun _ => 1)) = Some V ->
  vf_n (Superimposed [V; LinearViscous IsoJ2 (fun _ => 1); V]) = 2%nat /\ offset [V; LinearViscous IsoJ2 (fun _ => 1); V] 2 = 1%nat.
Proof. intros V H. cbn in H. injection H as <-. split; reflexivity. Qed.

(** ** C30 *)
(** Perzyna and Chaboche flow exactly when the yield function is positive, never backwards *)
Theorem C30_perzyna : forall Y H n eta V s a T, make_perzyna Y H (GPowerLaw n eta) = Some V -> 0 < eta T ->
  0 <= vf_y V s a T /\ (0 < vf_y V s a T <-> 0 < ys_f Y s (hr_q H a T) T).
Proof. exact perzyna_flows. Qed.
Print Assumptions C30_perzyna.
Theorem C30_chaboche : forall Y H F n pre V s a T, make_chaboche Y H F n pre = Some V -> 0 < fl_eta F (a 0%nat) T -> 0 < pre T ->
  0 <= vf_y V s a T /\ (0 < vf_y V s a T <-> 0 < ys_f Y s (na_q H a T) T).
Proof. exact chaboche_flows. Qed.
Print Assumptions C30_chaboche.
Theorem C30_yaguchi : forall p s a T, 0 < yD p T ->
  0 <= vf_y (Yaguchi p) s a T /\ (0 < vf_y (Yaguchi p) s a T <-> a 13%nat < yJ2 (y_dS s a)).
Proof. exact yaguchi_flows. Qed.
Print Assumptions C30_yaguchi.
(** inside the yield surface the stress rate is elastic, and only static recovery moves the history *)
Theorem C30_elastic_perzyna : forall Y H G V C limit s a e T Td, make_perzyna Y H G = Some V -> ys_f Y s (hr_q H a T) T <= 0 ->
  veq 6 (gf_s (TVP C V limit) s a e T Td) (mv 6 (C T) e) /\
  (forall i, gf_a (TVP C V limit) s a e T Td i = 0) /\ gf_work (TVP C V limit) s a e T Td = 0.
Proof. exact perzyna_elastic. Qed.
Print Assumptions C30_elastic_perzyna.
Theorem C30_elastic_chaboche : forall Y H F n pre V C limit s a e T Td, make_chaboche Y H F n pre = Some V -> ys_f Y s (na_q H a T) T <= 0 ->
  veq 6 (gf_s (TVP C V limit) s a e T Td) (mv 6 (C T) e) /\
  (forall i, gf_a (TVP C V limit) s a e T Td i = na_hT H s a T i * Td + na_ht H s a T i) /\ gf_work (TVP C V limit) s a e T Td = 0.
Proof. exact chaboche_elastic. Qed.
Print Assumptions C30_elastic_chaboche.
(** flow of an isotropic J2 Perzyna material never produces work *)
Theorem C30_dissipation : forall H n eta V C limit s a e T Td, make_perzyna IsoJ2 H (GPowerLaw n eta) = Some V -> 0 < eta T ->
  0 <= gf_work (TVP C V limit) s a e T Td.
Proof. exact perzyna_dissipates. Qed.
Print Assumptions C30_dissipation.
(** linear viscous flow has no yield surface: the shear relation is exactly linear.  A uniaxial
    stress x flows at the axial rate x/eta *)
Theorem C30_linear_viscous_uniaxial : forall eta x a T, eps < sqrt (2 / 3) * Rabs x ->
  let s := fun i => match i with O => x | _ => 0 end in
  vf_y (LinearViscous IsoJ2 eta) s a T * pv (vf_g (LinearViscous IsoJ2 eta)) s a T 0%nat = x / eta T.
Proof. exact viscous_uniaxial. Qed.
Print Assumptions C30_linear_viscous_uniaxial.
Example C30_case : forall V, make_perzyna IsoJ2 (VoceIso (fun _ => 1) (fun _ => 0) (fun _ => 0)) (GPowerLaw (fun _ => 2) (fun _ => 1)) = Some V ->
  vf_y V vzero vzero 0 = 0 /\ 0 < vf_y V (vlist [0; 0; 0; 5]) vzero 0.
Proof. exact c30_case. Qed.

(** ** C55 *)
(** A viscoplastic update over a time step solves, to the solver's tolerance, the backward Euler
    equations: the stress moves by C times (strain minus inelastic strain) increment, and the
    final flow rate is within the rate limit. *)
Theorem C55_step : forall lsolve inv prm C V limit skip next past st st' A E, (1 <= miter prm)%Z ->
  update_step lsolve inv prm (GenIntegrator C (TVP C V limit) skip) next past st = Some (st', A, E) ->
  eps <= ld_t next - ld_t past ->
  let T := ld_T next in let dt := ld_t next - ld_t past in let dT := ld_T next - ld_T past in
  let s' := ps_s st' in let a' := ps_h st' in
  vf_y V s' a' T <= limit /\
  exists r, within_tolerance prm (6 + vf_n V) r (gi_R (TVP C V limit) next past st (sb_init (GenIntegrator C (TVP C V limit) skip) next past st)) /\
    (forall i, (i < 6)%nat -> s' i = ps_s st i
       + mv 6 (C T) (fun j => (ld_e next j - ld_e past j)
           - (dt * vf_y V s' a' T * pv (vf_g V) s' a' T j + dT * pv (vf_gT V) s' a' T j + dt * pv (vf_gt V) s' a' T j)) i + r i) /\
    (forall i, (i < vf_n V)%nat -> a' i = ps_h st i
       + (dt * vf_y V s' a' T * pv (vf_h V) s' a' T i + dT * pv (vf_hT V) s' a' T i + dt * pv (vf_ht V) s' a' T i) + r (6 + i)%nat).
Proof. exact visco_step. Qed.
Print Assumptions C55_step.
(** at constant temperature: the inelastic strain e - S s moves by the integrated flow *)
Theorem C55_inelastic_strain : forall lsolve inv prm C S V limit skip next past st st' A E, (1 <= miter prm)%Z ->
  update_step lsolve inv prm (GenIntegrator C (TVP C V limit) skip) next past st = Some (st', A, E) ->
  eps <= ld_t next - ld_t past -> ld_T next = ld_T past -> left_inverse 6 (S (ld_T next)) (C (ld_T next)) ->
  let T := ld_T next in let dt := ld_t next - ld_t past in
  exists r, within_tolerance prm (6 + vf_n V) r (gi_R (TVP C V limit) next past st (sb_init (GenIntegrator C (TVP C V limit) skip) next past st)) /\
    forall i, (i < 6)%nat -> plastic_strain S next (ps_s st') i = plastic_strain S past (ps_s st) i
      + dt * (vf_y V (ps_s st') (ps_h st') T * pv (vf_g V) (ps_s st') (ps_h st') T i + pv (vf_gt V) (ps_s st') (ps_h st') T i)
      - mv 6 (S T) r i.
Proof. exact visco_strain. Qed.
Print Assumptions C55_inelastic_strain.
(** a step that ends inside the yield surface of a Perzyna material was elastic *)
Theorem C55_elastic : forall lsolve inv prm Y H G V C limit skip next past st st' A E, (1 <= miter prm)%Z -> make_perzyna Y H G = Some V ->
  update_step lsolve inv prm (GenIntegrator C (TVP C V limit) skip) next past st = Some (st', A, E) ->
  eps <= ld_t next - ld_t past -> ys_f Y (ps_s st') (hr_q H (ps_h st') (ld_T next)) (ld_T next) <= 0 ->
  exists r, within_tolerance prm (6 + vf_n V) r (gi_R (TVP C V limit) next past st (sb_init (GenIntegrator C (TVP C V limit) skip) next past st)) /\
    (forall i, (i < 6)%nat -> ps_s st' i = ps_s st i + mv 6 (C (ld_T next)) (fun j => ld_e next j - ld_e past j) i + r i) /\
    (forall i, (i < vf_n V)%nat -> ps_h st' i = ps_h st i + r (6 + i)%nat).
Proof. exact visco_elastic. Qed.
Print Assumptions C55_elastic.
(** the Jacobian handed to the Newton solver is exact, and the tangent is the derivative of the
    stress, for any flow rule with exact derivatives *)
Theorem C55_jacobian : forall P C V limit next past st, vflow_exact P V -> 0 < ld_t next - ld_t past ->
  is_jac (6 + vf_n V) (6 + vf_n V) (fun x => P (ld_T next) x (hist_of x)) (gi_R (TVP C V limit) next past st) (gi_J (TVP C V limit) next past).
Proof. intros P C V limit next past st HV Ht. exact (gi_jac (TVP C V limit) (fun T s a _ => P T s a) next past st (tvp_exact P C V limit HV) Ht). Qed.
Print Assumptions C55_jacobian.
(** a step that completes *)
Example C55_case : exists lsolve inv prm V next past st r, (1 <= miter prm)%Z /\ eps <= ld_t next - ld_t past /\
  make_perzyna IsoJ2 (VoceIso (fun _ => 1) (fun _ => 0) (fun _ => 0)) (GPowerLaw (fun _ => 1) (fun _ => 1)) = Some V /\
  update_step lsolve inv prm (GenIntegrator (fun _ => delta) (TVP (fun _ => delta) V 10) false) next past st = Some r.
Proof. exact visco_step_case. Qed.
