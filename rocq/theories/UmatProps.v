(** The Abaqus user material and the example programs *)
From Verif Require Import Base Diff.
From Verif Require Import SubstepModel CreepModel BlockModel UmatModel UmatSpec UmatProofs UmatEx.
From Coq Require Import ZArith List Arith Lia Lra.
Import ListNotations.
Open Scope R_scope.

(** ** C91 *)
(** the specification of the two notations: in both, the product of stress and strain is the power of the tensors *)
Theorem C91_notations : forall s e, symmetric s -> symmetric e -> dot 6 (abq_stress s) (abq_strain e) = power s e /\ dot 6 (mandel s) (mandel e) = power s e.
Proof. exact @notation_ok. Qed.
Print Assumptions C91_notations.
(** the strain handed over reaches the model as the Mandel vector of the same tensor *)
Theorem C91_strain : forall t, symmetric t -> convertv (abq_strain t) imap emult = mandel t.
Proof. exact @to_strain. Qed.
Print Assumptions C91_strain.
(** so does the stress *)
Theorem C91_stress_in : forall t, convertv (abq_stress t) imap smult = mandel t.
Proof. exact @to_stress. Qed.
Print Assumptions C91_stress_in.
(** the Mandel stress of the model is returned as the components of the same tensor *)
Theorem C91_stress_out : forall t v res, veq 6 (mandel t) v -> veq 6 (bconvertv v imap smult res) (abq_stress t).
Proof. exact @from_stress. Qed.
Print Assumptions C91_stress_out.
(** any number of increments: Abaqus ends with what the user of update_sd gets from the same strains, times and temperatures, or stops at the increment the model refuses *)
Theorem C91_history : forall B T t nstatv ds, (ba_nh B <= nstatv)%nat -> (forall d, In d ds -> symmetric (tn_e d)) ->
  match aba_run B 6 nstatv (map abq_inc ds) (aba_start B T t) with
  | Some q => exists n, direct_run B ds (direct_start B T t) n /\ matches q n
  | None => exists pre d post n, ds = pre ++ d :: post /\ direct_run B pre (direct_start B T t) n /\ direct_fails B d n
  end.
Proof. exact @history. Qed.
Print Assumptions C91_history.
Example C91_case : forall g, exists q, aba_run (free_solid g) 6 1 (map abq_inc [shear_inc 1; shear_inc 2]) (aba_start (free_solid g) 0 0) = Some q /\
  ap_stress (at_p q) 3%nat = 2 * g * 3 /\ ap_stress (at_p q) 0%nat = 2 * g * 3 /\ ap_statev (at_p q) 0%nat = 2.
Proof. exact solid_run. Qed.
Example C91_cut_case : exists p m, aba_call (solid 1 1) 6 1 (abq_inc (shear_inc 2)) (aba_start (solid 1 1) 0 0) = Back p m /\ ap_pnewdt p = 1 / 2 /\ m = 1%nat.
Proof. exact solid_cut. Qed.
(** a refused increment: half the step is asked for, everything else is as before *)
Theorem C91_refused : forall B dies nstatv junk a p models, (ba_nh B <= nstatv)%nat -> asked B a p = None ->
  exists p' m, umat B (Returns tt) dies 6 nstatv junk a p models = Back p' m /\ ap_pnewdt p' = 1 / 2 /\
    ap_stress p' = ap_stress p /\ ap_statev p' = ap_statev p /\ ap_ddsdde p' = ap_ddsdde p /\ ap_sse p' = ap_sse p /\ ap_spd p' = ap_spd p /\ ap_scd p' = ap_scd p.
Proof. exact @refused. Qed.
Print Assumptions C91_refused.
(** DDSDDE is the derivative of STRESS by DSTRAN once its shear columns are halved.  Missing: DDSDDE as returned. *)
Theorem C91_tangent_partial : forall B nstatv a p f, (ba_nh B <= nstatv)%nat -> exact_tangent B a p f ->
  is_jac 6 6 (fun _ => True) (new_stress B nstatv a p) (fun d => half_shear (new_ddsdde B nstatv a p d)).
Proof. exact @tangent_halved. Qed.
Print Assumptions C91_tangent_partial.
(** DDSDDE as returned is the derivative exactly when all its shear columns vanish *)
Theorem C91_tangent_right_only : forall B nstatv a p f, (ba_nh B <= nstatv)%nat -> exact_tangent B a p f ->
  (tangent_right B nstatv a p <-> forall d k l, (k < 6)%nat -> (3 <= l < 6)%nat -> new_ddsdde B nstatv a p d k l = 0).
Proof. exact @tangent_right_only. Qed.
Print Assumptions C91_tangent_right_only.
Example C91_tangent_case : forall g a p, exact_tangent (free_solid g) a p (solid_res g a p).
Proof. exact solid_exact. Qed.
(** for an elastic solid it is not *)
Theorem C91_tangent_refuted : forall g a p, g <> 0 -> ~ tangent_right (free_solid g) 1 a p.
Proof. exact @tangent_wrong. Qed.
Print Assumptions C91_tangent_refuted.
(** its shear stress is g times the engineering shear strain, its tangent says 2 g *)
Theorem C91_shear_twice : forall g a p d, new_ddsdde (free_solid g) 1 a p d 3%nat 3%nat = 2 * g /\ new_ddsdde (free_solid g) 1 a p d 0%nat 0%nat = 2 * g /\
  (forall x, new_stress (free_solid g) 1 a p (fun i => if Nat.eqb i 3 then x else 0) 3%nat = g * (ai_stran a 3%nat + x)).
Proof. exact @shear_twice. Qed.
Print Assumptions C91_shear_twice.
(** a successful call leaves as many models as there were, a refused one leaves one more *)
Theorem C91_released : forall B nstatv junk a p models p' m, (ba_nh B <= nstatv)%nat -> umat B (Returns tt) (Returns tt) 6 nstatv junk a p models = Back p' m ->
  m = match asked B a p with Some _ => models | None => S models end.
Proof. exact @released. Qed.
Print Assumptions C91_released.
(** over a sequence of calls: one more for every refused increment *)
Theorem C91_leak_refuted : forall B nstatv, (ba_nh B <= nstatv)%nat -> forall calls models,
  umat_models B nstatv calls models = (models + length (filter (fun x => match asked B (fst x) (snd x) with None => true | Some _ => false end) calls))%nat.
Proof. exact @leak. Qed.
Print Assumptions C91_leak_refuted.
(** so any number can pile up *)
Theorem C91_leak_any_refuted : forall n, exists B calls, length calls = n /\ (ba_nh B <= 1)%nat /\ umat_models B 1 calls 0 = n.
Proof. exact @leak_unbounded. Qed.
Print Assumptions C91_leak_any_refuted.
(** plane and axisymmetric elements, with fewer than six components, or too few STATEV: accesses outside the arrays *)
Theorem C91_elements_refuted : forall B loads dies ntens nstatv junk a p models, (ntens < 6 \/ nstatv < ba_nh B)%nat -> loads = Returns tt -> umat B loads dies ntens nstatv junk a p models = Outside.
Proof. exact @smaller. Qed.
Print Assumptions C91_elements_refuted.
(** the C, Fortran and C++ programs compute the same *)
Theorem C91_programs : forall B el e t T n, (forall r, el r = true) -> csimple B el e t T n = cxxsimple B el e t T n /\ fsimple B el e t T n = cxxsimple B el e t T n.
Proof. exact @programs_agree. Qed.
Print Assumptions C91_programs.
(** and that is the history of update_sd calls along a straight line to strain e and time t *)
Theorem C91_program_history : forall B el e t T n q, (0 < n)%nat -> (forall r, el r = true) -> csimple B el e t T n = Some q ->
  pull_run B T (e / INR n) (t / INR n) n (sst0 B) q /\ ss_e q = first e /\ ss_t q = t.
Proof. exact @program_pulls. Qed.
Print Assumptions C91_program_history.
(** an error of the elastic strains is reported as a failed stress update of the next step, and not at all at the last step *)
Theorem C91_program_error_refuted : exists B el e t T, (forall next past s h u p, exists r, ba_update B next past s h u p = Some r) /\
  (exists q, csimple B el e t T 1 = Some q) /\ csimple B el e t T 2 = None.
Proof. exact @stale_error. Qed.
Print Assumptions C91_program_error_refuted.
Example C91_program_case : exists q, csimple (free_solid 1) (fun _ => true) 1 1 0 4 = Some q.
Proof. eexists. reflexivity. Qed.
