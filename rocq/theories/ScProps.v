(** The single crystal update *)
From Verif Require Import Base Diff NemlMathModel NemlMathSpec SolverModel PlastSpec TensorModel RotModel RotSpec CpModel CpSpec ScModel ScSpec ScProofs ScMore ScLast ScCase.
From Coq Require Import List ZArith Lia Lra.
Open Scope R_scope.

(** ** C67 *)
(** without subdivision an accepted call solves the backward Euler equations of stress and variables to the tolerance of the solver *)
Theorem C67_step_solved : forall fuel lsolve inv c o k r, so_force o = 0%nat -> so_max o = 0%nat -> (1 <= miter (so_prm o))%Z -> k_t1 k <> k_t0 k ->
  sc_update fuel lsolve inv c o k = Some (Some r) ->
  (forall q, r_h r q = r_s r (6 + q)%nat) /\
  exists s, (s = k_s k \/ forall i, (i < 6)%nat -> s i = k_s k i + mv 6 (flat 6 (c_C c (k_T1 k) (k_q k))) (inc_d k) i) /\
    within_tolerance (so_prm o) (6 + c_n c) (whole_gap c k (r_s r)) (whole_gap c k (state_vec s (k_h k))).
Proof. exact update_solves. Qed.
Print Assumptions C67_step_solved.
(** the residual of a substep is the gap of the backward Euler equations *)
Theorem C67_residual : forall c k pred sd s0 h x i, k_t1 k <> k_t0 k ->
  sc_R c (sub_trial c k pred sd s0 h) x i = euler_gap c k (/ 2 ^ sd) (k_T0 k + (k_T1 k - k_T0 k) * / 2 ^ sd) s0 h x i.
Proof. exact residual_gap. Qed.
Print Assumptions C67_residual.
(** the Jacobian handed to the solver is that of the residual *)
Theorem C67_jacobian : forall c ts P, i_n (t_im c ts) = c_n c -> inelastic_exact (t_im c ts) P ->
  is_jac (6 + c_n c) (6 + c_n c) (fun x => P x (tail6 x)) (sc_R c ts) (sc_J c ts).
Proof. exact jacobian_exact. Qed.
Print Assumptions C67_jacobian.
(** the tangents A and B are the derivatives of the solution by final strain and final vorticity *)
Theorem C67_tangents : forall fuel lsolve inv c o k pred r A B P (d w X : R -> vec) t vd vw V, so_force o = 0%nat -> k_t1 k <> k_t0 k -> (forall n J K, inv n J = Some K -> left_inverse n K J) ->
  i_n (c_im c (k_T1 k) (k_q k)) = c_n c -> inelastic_exact (c_im c (k_T1 k) (k_q k)) P ->
  attempt fuel lsolve inv c o k pred = Some (Some r) -> sub_solve lsolve c o (sub_trial c k pred 0 (k_s k) (k_h k)) <> None ->
  r_AB r = Some (A, B) -> d t = k_d1 k -> w t = k_w1 k -> X t = r_s r ->
  path 6 d t vd -> path 3 w t vw -> path (6 + c_n c) X t V -> P (X t) (tail6 (X t)) ->
  locally t (fun u => veq (6 + c_n c) (whole_gap c (with_dw k (d u) (w u)) (X u)) vzero) ->
  path 6 X t (vadd (mv 6 A vd) (mv 3 B vw)).
Proof. exact tangent_exact. Qed.
Print Assumptions C67_tangents.
(** which first guess is used, and when the other is tried *)
Theorem C67_dispatch : forall fuel lsolve inv c o k, (so_pred o = true \/ (k_t0 k = 0 /\ so_first o = true) -> sc_update fuel lsolve inv c o k = attempt fuel lsolve inv c o k true) /\
  (so_pred o = false -> so_first o = false \/ k_t0 k <> 0 -> forall r, attempt fuel lsolve inv c o k false = Some (Some r) -> sc_update fuel lsolve inv c o k = Some (Some r)) /\
  (so_pred o = false -> so_first o = false \/ k_t0 k <> 0 -> attempt fuel lsolve inv c o k false = Some None ->
     sc_update fuel lsolve inv c o k = if so_fallback o then attempt fuel lsolve inv c o k true else Some None).
Proof. exact dispatch. Qed.
Print Assumptions C67_dispatch.
(** bisection ends: the fuel given is enough whatever fails *)
Theorem C67_terminates : forall lsolve inv c o k, (so_force o <= so_max o)%nat ->
  sc_update (2 ^ so_max o + so_max o + 1) lsolve inv c o k <> None.
Proof. exact update_ends. Qed.
Print Assumptions C67_terminates.
(** an accepted call always set tangents *)
Theorem C67_complete : forall fuel lsolve inv c o k r, (so_force o <= so_max o)%nat -> sc_update fuel lsolve inv c o k = Some (Some r) -> r_AB r <> None.
Proof. exact update_complete. Qed.
Print Assumptions C67_complete.
(** an elastic crystal: the increment is divided by the number of forced subdivisions *)
Theorem C67_elastic_whole : forall fuel lsolve inv C S o k r, (so_force o <= so_max o)%nat -> (1 <= miter (so_prm o))%Z -> 0 < atol (so_prm o) -> so_pred o = true ->
  k_t1 k <> k_t0 k -> veq 3 (k_w1 k) (k_w0 k) -> sc_update fuel lsolve inv (elastic_crystal C S) o k = Some (Some r) ->
  forall i, (i < 6)%nat -> r_s r i = k_s k i + mv 6 (flat 6 (C (k_T0 k + (k_T1 k - k_T0 k) / 2 ^ so_force o) (k_q k))) (inc_d k) i / 2 ^ so_force o.
Proof. exact elastic_stress. Qed.
Print Assumptions C67_elastic_whole.
(** with subdivision only the last substep is solved, from the stress at the start of the call *)
Theorem C67_subdivided_partial : forall fuel lsolve inv c o k r, (so_force o <= so_max o)%nat -> (1 <= miter (so_prm o))%Z -> k_t1 k <> k_t0 k ->
  sc_update fuel lsolve inv c o k = Some (Some r) ->
  (forall q, r_h r q = r_s r (6 + q)%nat) /\
  exists sd s0 h0 start, (so_force o <= sd <= so_max o)%nat /\
    let f := / 2 ^ sd in let T := k_T0 k + (k_T1 k - k_T0 k) * f in
    within_tolerance (so_prm o) (6 + c_n c) (euler_gap c k f T s0 h0 (r_s r)) (euler_gap c k f T s0 h0 start).
Proof. exact update_last. Qed.
Print Assumptions C67_subdivided_partial.
(** two forced substeps of an elastic crystal under unit stretch and unit stiffness give half the stress *)
Theorem C67_subdivided_refuted : exists r, sc_update 4 (fun _ _ => None) id_inv cube (opts 1 1) (pull vzero) = Some (Some r) /\
  r_s r 0%nat = 1 / 2 /\ mv 6 (flat 6 (c_C cube 300 (Quat 1 0 0 0))) (inc_d (pull vzero)) 0%nat = 1.
Proof. exact subdivision_loses. Qed.
Print Assumptions C67_subdivided_refuted.
(** more forced than allowed subdivisions: no call ever returns *)
Theorem C67_forced_refuted : forall fuel lsolve inv c o k pred r, (so_max o < so_force o)%nat -> attempt fuel lsolve inv c o k pred <> Some (Some r).
Proof. exact attempt_never. Qed.
Print Assumptions C67_forced_refuted.
Example C67_case : exists r A B, attempt 2 (fun _ _ => None) id_inv cube (opts 0 0) (pull vzero) true = Some (Some r) /\ r_AB r = Some (A, B) /\
  sub_solve (fun _ _ => None) cube (opts 0 0) (sub_trial cube (pull vzero) true 0 (k_s (pull vzero)) (k_h (pull vzero))) <> None /\
  (forall n J K, id_inv n J = Some K -> left_inverse n K J) /\ inelastic_exact (c_im cube 300 (Quat 1 0 0 0)) (fun _ _ => True) /\
  pulls 1 = k_d1 (pull vzero) /\ pulled 1 = r_s r /\ path 6 pulls 1 stretch /\ path (6 + c_n cube) pulled 1 stretch /\
  locally 1 (fun u => veq (6 + c_n cube) (whole_gap cube (with_dw (pull vzero) (pulls u) vzero) (pulled u)) vzero).
Proof. exact tangent_case. Qed.

(** ** C68 *)
Theorem C68_rotation_unit : forall fuel lsolve inv c o k r, (so_force o <= so_max o)%nat -> unitq (k_q k) -> sc_update fuel lsolve inv c o k = Some (Some r) -> unitq (r_q r).
Proof. exact rotation_unit. Qed.
Print Assumptions C68_rotation_unit.
Theorem C68_rotation_kept : forall fuel lsolve inv c o k r, (so_force o <= so_max o)%nat -> so_rot o = false -> sc_update fuel lsolve inv c o k = Some (Some r) -> r_q r = k_q k.
Proof. exact rotation_kept. Qed.
Print Assumptions C68_rotation_kept.
(** the lattice turns about the lattice spin by its size times the step *)
Theorem C68_rotation_turns : forall fuel lsolve inv c o k r v i, so_force o = 0%nat -> so_max o = 0%nat -> so_rot o = true -> k_t1 k <> k_t0 k ->
  sc_update fuel lsolve inv c o k = Some (Some r) -> (i < 3)%nat -> let om := lattice_turn c k r in norm3 om <> 0 ->
  apply_v (r_q r) v i = turned (fun l => om l / norm3 om) (norm3 om) (apply_v (k_q k) v) i.
Proof. exact rotation_turns. Qed.
Print Assumptions C68_rotation_turns.
(** without spin: a half turn about the third axis *)
Theorem C68_no_spin_partial : forall fuel lsolve inv c o k r v i, so_force o = 0%nat -> so_max o = 0%nat -> so_rot o = true -> k_t1 k <> k_t0 k ->
  sc_update fuel lsolve inv c o k = Some (Some r) -> (i < 3)%nat -> veq 3 (lattice_turn c k r) vzero ->
  apply_v (r_q r) v i = (if Nat.eqb i 2 then 1 else -1) * apply_v (k_q k) v i.
Proof. exact rotation_none. Qed.
Print Assumptions C68_no_spin_partial.
(** a stretch without spin reverses the first crystal axis *)
Theorem C68_no_spin_refuted : exists r, sc_update 2 (fun _ _ => None) id_inv cube (opts 0 0) (pull vzero) = Some (Some r) /\
  veq 3 (lattice_turn cube (pull vzero) r) vzero /\ r_s r 0%nat = 1 /\
  apply_v (k_q (pull vzero)) stretch 0%nat = 1 /\ apply_v (r_q r) stretch 0%nat = -1.
Proof. exact stretch_turns. Qed.
Print Assumptions C68_no_spin_refuted.
(** no time: stress and variables stay, the lattice is turned by a half turn *)
Theorem C68_zero_time_partial : forall fuel lsolve inv c o k r, (so_force o <= so_max o)%nat -> (1 <= miter (so_prm o))%Z -> 0 < atol (so_prm o) ->
  k_t1 k = k_t0 k -> sc_update fuel lsolve inv c o k = Some (Some r) ->
  (forall i, (i < 6)%nat -> r_s r i = k_s k i) /\ (so_force o = 0%nat -> forall q, r_h r q = k_h k q) /\
  (so_rot o = true -> forall v i, (i < 3)%nat -> apply_v (r_q r) v i = (if Nat.eqb i 2 then 1 else -1) * apply_v (k_q k) v i).
Proof. exact zero_time_stress. Qed.
Print Assumptions C68_zero_time_partial.
(** the energy increment is the trapezoidal work less the work of the old stress *)
Theorem C68_energy_partial : forall fuel lsolve inv c o k r, (so_force o <= so_max o)%nat -> sc_update fuel lsolve inv c o k = Some (Some r) ->
  r_u r = k_u k + trapezoid (r_s r) (k_s k) (k_d1 k) (k_d0 k) - rsum 6 (fun i => k_s k i * (k_d1 k i - k_d0 k i)).
Proof. exact energy_value. Qed.
Print Assumptions C68_energy_partial.
Theorem C68_energy_refuted : exists r, sc_update 2 (fun _ _ => None) id_inv cube (opts 0 0) (pull stretch) = Some (Some r) /\
  trapezoid (r_s r) (k_s (pull stretch)) stretch vzero = 3 / 2 /\ r_u r = 1 / 2.
Proof. exact energy_lost. Qed.
Print Assumptions C68_energy_refuted.
(** dissipated work is energy less the elastic part *)
Theorem C68_work : forall fuel lsolve inv c o k r, (so_force o <= so_max o)%nat -> sc_update fuel lsolve inv c o k = Some (Some r) ->
  r_p r - k_p k = r_u r - k_u k - rsum 6 (fun i => (r_s r i - k_s k i) * (mv 6 (flat 6 (c_S c (k_T1 k) (r_q r))) (r_s r) i - mv 6 (flat 6 (c_S c (k_T0 k) (k_q k))) (k_s k) i)) / 2.
Proof. exact work_value. Qed.
Print Assumptions C68_work.
Theorem C68_elastic_no_dissipation : forall fuel lsolve inv C S o k r, so_force o = 0%nat -> (1 <= miter (so_prm o))%Z -> 0 < atol (so_prm o) -> so_pred o = true -> so_rot o = false ->
  k_t1 k <> k_t0 k -> veq 3 (k_w1 k) (k_w0 k) -> k_T1 k = k_T0 k ->
  left_inverse 6 (flat 6 (S (k_T1 k) (k_q k))) (flat 6 (C (k_T1 k) (k_q k))) ->
  sc_update fuel lsolve inv (elastic_crystal C S) o k = Some (Some r) -> r_p r = k_p k.
Proof. exact elastic_no_dissipation. Qed.
Print Assumptions C68_elastic_no_dissipation.
(** reading back an orientation *)
Theorem C68_orientations : forall r q, get_active (set_active r q) = q /\ get_passive (set_passive r q) = q /\ get_active (set_passive r q) = oinv q /\ get_passive (set_active r q) = oinv q.
Proof. exact orientation_round. Qed.
Print Assumptions C68_orientations.
(** after any update the elastic deformation gradient does not know the rotation *)
Theorem C68_deformation_refuted : forall inv9 fuel lsolve inv c o k r T, (so_force o <= so_max o)%nat -> sc_update fuel lsolve inv c o k = Some (Some r) ->
  sc_Fe inv9 c T (r_s r) (r_q r) (r_q0 r) = inv9 (mul_2 (usym (fun i => (if Nat.ltb i 3 then 1 else 0) + sc_estrain c T (r_q r) (r_s r) i)) (to_matrix (Quat 1 0 0 0))).
Proof. exact Fe_blind. Qed.
Print Assumptions C68_deformation_refuted.
Example C68_case : exists r, sc_update 2 (fun _ _ => None) id_inv cube (opts 0 0) (pull vzero) = Some (Some r) /\
  veq 3 (lattice_turn cube (pull vzero) r) vzero /\ r_s r 0%nat = 1 /\
  apply_v (k_q (pull vzero)) stretch 0%nat = 1 /\ apply_v (r_q r) stretch 0%nat = -1.
Proof. exact stretch_turns. Qed.
